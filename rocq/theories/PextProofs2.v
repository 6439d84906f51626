(** What is found after the extension (C98). *)
From Coq Require Import String.
From Verif Require Import Base RdrModel RdrProofs CvtModel PextModel PextSpec PextProofs.
Open Scope string_scope.

Lemma apart_head a b x y : x <> y -> apart (x :: a) (y :: b).
Proof. intro N. split; intros (c & E); cbn in E; congruence. Qed.
Lemma apart_tail a b x : apart a b -> apart (x :: a) (x :: b).
Proof. intros (A & B). split; intros (c & E); cbn in E; [apply A|apply B]; exists c; congruence. Qed.
Ltac away := solve [repeat first [apply apart_head; congruence | apply apart_tail]].
Ltac here r := right; exists r; split; reflexivity.
Theorem extend_written p p' ms q x : listed p ms -> ~ In "continuumRemoval" ms -> ~ In "templateCatalog" ms -> extend p = Val p' -> written p ms q x -> value p' q = Some x.
Proof.
  intros L N1 N2 E Wr. destruct (extend_sets _ _ _ L E) as (W & S & I). apply (sets_gives W p p' q x S).
  - intros o O. apply I in O.
    assert (M : forall m, In m ms -> m <> "continuumRemoval" /\ m <> "templateCatalog") by (intros m J; split; intro X; subst m; contradiction).
    destruct Wr as [k v N K|k v N K|m J N|m J N|c k v N K].
    + destruct O as [O|O|m J O|m J O|c k1 v1 O K1]; cbn [fst].
      * destruct K as [K|[K|[K|[]]]]; injection K as K K'; subst k v; [here ["method"]|here ["medianKernelWidth"]|here ["medianEvenReflection"]].
      * left. away.
      * left. destruct (M m J). away.
      * left. destruct (M m J). away.
      * destruct c; [left; away|]. destruct K1 as [K1|[K1|[]]]; injection K1 as K1 K2; subst k1 v1; destruct K as [K|[K|[K|[]]]]; injection K as K K'; subst k v; try (left; away); here (@nil string).
    + destruct O as [O|O|m J O|m J O|c k1 v1 O K1]; cbn [fst].
      * left. away.
      * destruct K as [K|[K|[K|[]]]]; injection K as K K'; subst k v; [here ["method"]|here ["medianKernelWidth"]|here ["medianEvenReflection"]].
      * left. destruct (M m J). away.
      * left. destruct (M m J). away.
      * destruct c; [|left; away]. destruct K1 as [K1|[K1|[]]]; injection K1 as K1 K2; subst k1 v1; destruct K as [K|[K|[K|[]]]]; injection K as K K'; subst k v; try (left; away); here (@nil string).
    + destruct (M m J). destruct O as [O|O|m' J' O|m' J' O|c k1 v1 O K1]; cbn [fst].
      * left. away.
      * left. away.
      * destruct (String.eqb_spec m' m) as [X|X]; [subst m'; here (@nil string)|left; away].
      * left. destruct (String.eqb_spec m' m) as [X|X]; [subst m'; away|away].
      * left. destruct c; away.
    + destruct (M m J). destruct O as [O|O|m' J' O|m' J' O|c k1 v1 O K1]; cbn [fst].
      * left. away.
      * left. away.
      * left. destruct (String.eqb_spec m' m) as [X|X]; [subst m'; away|away].
      * destruct (String.eqb_spec m' m) as [X|X]; [subst m'; here (@nil string)|left; away].
      * left. destruct c; away.
    + destruct O as [O|O|m J O|m J O|c1 k1 v1 O K1]; cbn [fst].
      * destruct c; [left; away|]. destruct K as [K|[K|[]]]; injection K as K K'; subst k v; [here ["medianKernelWidth"]|here ["medianEvenReflection"]].
      * destruct c; [|left; away]. destruct K as [K|[K|[]]]; injection K as K K'; subst k v; [here ["medianKernelWidth"]|here ["medianEvenReflection"]].
      * left. destruct (M m J). destruct c; away.
      * left. destruct (M m J). destruct c; away.
      * destruct K1 as [K1|[K1|[]]]; injection K1 as K1 K2; subst k1 v1; destruct K as [K|[K|[]]]; injection K as K K'; subst k v; destruct c, c1; try (left; away); here (@nil string).
  - right. destruct Wr as [k v N K|k v N K|m J N|m J N|c k v N K].
    + exists (["continuumRemoval"], default_section). split; [apply I, wa_removal, N|]. exists [k]. split; [reflexivity|].
      destruct K as [K|[K|[K|[]]]]; injection K as K K'; subst k v; reflexivity.
    + exists (["templateCatalog"; "continuumRemoval"], default_section). split; [apply I, wa_catalog, N|]. exists [k]. split; [reflexivity|].
      destruct K as [K|[K|[K|[]]]]; injection K as K K'; subst k v; reflexivity.
    + eexists. split; [apply I, wa_reestimation; [exact J|exact N]|]. exists []. split; reflexivity.
    + eexists. split; [apply I, wa_loglambda; [exact J|exact N]|]. exists []. split; reflexivity.
    + exists ((removal c ++ [k])%list, v). split; [apply I, wa_median; assumption|]. exists []. split; [rewrite app_nil_r; reflexivity|reflexivity].
Qed.
Lemma wanted_replaced p ms o : wanted p ms o -> replaced p ms (fst o).
Proof.
  intros [N|N|m J N|m J N|c k v N K]; cbn [fst]; [apply re_removal, N|apply re_catalog, N|apply re_reestimation; assumption|apply re_loglambda; assumption|apply re_median; [exact N|]].
  destruct K as [K|[K|[]]]; injection K as K K'; subst k; cbn; auto.
Qed.
Theorem extend_untouched p p' ms q : listed p ms -> extend p = Val p' -> untouched p ms q -> value p' q = value p q.
Proof.
  intros L E U. destruct (extend_sets _ _ _ L E) as (W & S & I). apply (sets_apart W p p' q S). intros o O. apply I, wanted_replaced in O. destruct (U _ O). split; assumption.
Qed.
(** the parameters of the client are kept where they are needed *)
Lemma prefix_cons a b x y : prefix_of (x :: a) (y :: b) -> x = y /\ prefix_of a b.
Proof. intros (c & E). cbn in E. injection E as E1 E2. split; [congruence|]. exists c. exact E2. Qed.
Lemma prefix_nil a : prefix_of a [] -> a = [].
Proof. intros (c & E). destruct a; [reflexivity|discriminate]. Qed.
Ltac part H := repeat match type of H with
  | prefix_of [] _ => fail 1
  | prefix_of (_ :: _) (_ :: _) => let X := fresh "X" in apply prefix_cons in H; destruct H as (X & H); try discriminate X
  | prefix_of (_ :: _) [] => apply prefix_nil in H; discriminate H
  end.
Theorem kept_reestimation p p' ms m : listed p ms -> ~ In "continuumRemoval" ms -> ~ In "templateCatalog" ms -> extend p = Val p' -> In m ms -> hybrid p m ->
  value p' (line_model_parameter m "continuumReestimation") = value p (line_model_parameter m "continuumReestimation").
Proof.
  intros L N1 N2 E I H. apply (extend_untouched p p' ms); [exact L|exact E|]. intros r R.
  destruct R as [N|N|m' J N|m' J N|[] k N K]; (split; intro P; unfold line_model_parameter in P; cbn [app removal] in P; part P); try (subst; contradiction); try congruence.
Qed.
Theorem kept_loglambda p p' ms m : listed p ms -> ~ In "continuumRemoval" ms -> ~ In "templateCatalog" ms -> extend p = Val p' -> In m ms -> fft p m ->
  value p' (line_model_parameter m "useLogLambdaSampling") = value p (line_model_parameter m "useLogLambdaSampling").
Proof.
  intros L N1 N2 E I H. apply (extend_untouched p p' ms); [exact L|exact E|]. intros r R.
  destruct R as [N|N|m' J N|m' J N|[] k N K]; (split; intro P; unfold line_model_parameter in P; cbn [app removal] in P; part P); try (subst; contradiction); try congruence.
Qed.
Theorem kept_method p p' ms : listed p ms -> ~ In "continuumRemoval" ms -> extend p = Val p' -> needs_removal p ms ->
  value p' ["continuumRemoval"; "method"] = value p ["continuumRemoval"; "method"] /\
  (median p false -> forall k, value p' ["continuumRemoval"; k] = value p ["continuumRemoval"; k]).
Proof.
  intros L N1 E Nd. split.
  - apply (extend_untouched p p' ms); [exact L|exact E|]. intros r R.
    destruct R as [N|N|m' J N|m' J N|[] k N [K|[K|[]]]]; try subst k; (split; intro P; unfold line_model_parameter in P; cbn [app removal] in P; part P); try contradiction; try (subst; contradiction); try congruence.
  - intros Md k. apply (extend_untouched p p' ms); [exact L|exact E|]. intros r R.
    destruct R as [N|N|m' J N|m' J N|[] k' N K]; (split; intro P; unfold line_model_parameter in P; cbn [app removal] in P; part P); try contradiction; try (subst; contradiction); try congruence.
Qed.
Theorem kept_catalog p p' ms : listed p ms -> ~ In "templateCatalog" ms -> extend p = Val p' -> needs_catalog_removal p ms ->
  value p' ["templateCatalog"; "continuumRemoval"; "method"] = value p ["templateCatalog"; "continuumRemoval"; "method"] /\
  (median p true -> forall k, value p' ["templateCatalog"; "continuumRemoval"; k] = value p ["templateCatalog"; "continuumRemoval"; k]).
Proof.
  intros L N1 E Nd. split.
  - apply (extend_untouched p p' ms); [exact L|exact E|]. intros r R.
    destruct R as [N|N|m' J N|m' J N|[] k N [K|[K|[]]]]; try subst k; (split; intro P; unfold line_model_parameter in P; cbn [app removal] in P; part P); try contradiction; try (subst; contradiction); try congruence.
  - intros Md k. apply (extend_untouched p p' ms); [exact L|exact E|]. intros r R.
    destruct R as [N|N|m' J N|m' J N|[] k' N K]; (split; intro P; unfold line_model_parameter in P; cbn [app removal] in P; part P); try contradiction; try (subst; contradiction); try congruence.
Qed.
