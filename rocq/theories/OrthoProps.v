(** C54, C55: the orthogonal and the log-sampled templates follow the original ones. *)
From Coq Require Import String.
From Verif Require Import Base StoreModel TcatModel TcatSpec OrthoModel OrthoSpec OrthoProofs.

(** ** C54.  [xs], [ys]: the templates of the category, original and log-sampled; [updated t t'] *)
Definition updated (orth : Q -> tpl -> tpl) (w : Q) (c : string) (xs ys : list tpl) (t t' : tcat) : Prop :=
  tc_ortho t' = false /\ tc_log t' = tc_log t /\ (forall c' o g, c' <> c -> lst t' c' o g = lst t c' o g) /\ (forall g, lst t' c false g = lst t c false g) /\
  lst t' c true false = map (fun x => Some (orth w x)) xs /\ lst t' c true true = map (fun x => Some (orth w x)) ys.
(** no orthogonal template yet *)
Theorem C54_first : forall orth t c w xs ys, c <> ""%string -> (forall x, In x (xs ++ ys)%list -> t_cat (orth w x) = c) ->
  lst t c false false = map Some xs -> lst t c false true = map Some ys -> lst t c true false = [] -> lst t c true true = [] ->
  exists t', Orthogonalize orth t c w = (t', Ok tt) /\ updated orth w c xs ys t t' /\ exists v, tc_width t' = Some v /\ (v == w)%Q.
Proof. exact first_time. Qed.
Print Assumptions C54_first.
(** another LSF than the remembered one: everything is computed again, whatever was there *)
Theorem C54_other_lsf : forall orth t c w xs ys, c <> ""%string -> (forall x, In x (xs ++ ys)%list -> t_cat (orth w x) = c) ->
  lst t c false false = map Some xs -> lst t c false true = map Some ys ->
  (tc_width t = None \/ exists v, tc_width t = Some v /\ ~ (v == w)%Q) -> lst t c true false <> [] ->
  exists t', Orthogonalize orth t c w = (t', Ok tt) /\ updated orth w c xs ys t t'.
Proof.
  intros orth t c w xs ys Nc H L0 L1 D N. destruct (other_lsf orth t c w xs ys Nc H L0 L1 (diff_width t w D) N) as [t' [E [R _]]]. exists t'. split; [exact E|exact R].
Qed.
Print Assumptions C54_other_lsf.
(** but the LSF is not remembered then: the next orthogonalization computes everything again although nothing changed *)
Theorem C54_other_lsf_forgotten_refuted : forall orth t c w xs ys, c <> ""%string -> (forall x, In x (xs ++ ys)%list -> t_cat (orth w x) = c) ->
  lst t c false false = map Some xs -> lst t c false true = map Some ys ->
  (tc_width t = None \/ exists v, tc_width t = Some v /\ ~ (v == w)%Q) -> lst t c true false <> [] ->
  exists t', Orthogonalize orth t c w = (t', Ok tt) /\ tc_width t' = None.
Proof.
  intros orth t c w xs ys Nc H L0 L1 D N. destruct (other_lsf orth t c w xs ys Nc H L0 L1 (diff_width t w D) N) as [t' [E [_ W]]]. exists t'. split; [exact E|exact W].
Qed.
Print Assumptions C54_other_lsf_forgotten_refuted.
(** same LSF, every template there: nothing is done *)
Theorem C54_nothing_to_do : forall orth t c w v, tc_width t = Some v -> (v == w)%Q -> lst t c true false <> [] ->
  (lst t c false true = [] \/ lst t c true true <> [] /\ no_null (lst t c true true)) ->
  exists t', Orthogonalize orth t c w = (t', Ok tt) /\ tc_ortho t' = false /\ tc_log t' = tc_log t /\ forall c' o g, lst t' c' o g = lst t c' o g.
Proof.
  intros orth t c w v W Q N H. exists (set_flags t false (tc_log t)). split; [|repeat split]. apply nothing_to_do; [eapply same_width; eassumption|exact N|].
  destruct H as [H|[H1 H2]]; [left; exact H|right]. split; [exact H1|]. revert H2. generalize (lst t c true true). unfold no_null, nonnull. intro l. induction l as [|[x|] l IH]; intro K; [reflexivity| |].
  - cbn. rewrite IH; [reflexivity|]. intros y Hy. apply K. right. exact Hy.
  - exfalso. apply (K None); [left; reflexivity|reflexivity].
Qed.
Print Assumptions C54_nothing_to_do.
(** same LSF, log-sampled templates changed: all of them ... *)
Theorem C54_log_sampled_changed : forall orth t c w v ys, c <> ""%string -> (forall x, In x ys -> t_cat (orth w x) = c) -> lst t c false true = map Some ys ->
  tc_width t = Some v -> (v == w)%Q -> lst t c true false <> [] -> lst t c true true = [] ->
  exists t', Orthogonalize orth t c w = (t', Ok tt) /\ tc_ortho t' = false /\ tc_log t' = tc_log t /\ tc_width t' = tc_width t /\
    (forall c' o g, lst t' c' o g = if (String.eqb c c' && o && g)%bool then map (fun x => Some (orth w x)) ys else lst t c' o g).
Proof. intros orth t c w v ys Nc H L W Q N Z. exact (log_again orth t c w ys Nc H L (same_width t w v W Q) N Z). Qed.
Print Assumptions C54_log_sampled_changed.
(** ... or the first ones *)
Theorem C54_log_sampled_first_changed : forall orth t c w v xs1 y xs2, c <> ""%string -> (forall x, In x (xs1 ++ y :: xs2)%list -> t_cat (orth w x) = c) -> coherent t c ->
  lst t c false true = map Some (xs1 ++ y :: xs2)%list -> tc_width t = Some v -> (v == w)%Q -> lst t c true false <> [] ->
  lst t c true true = (repeat None (length xs1) ++ map (fun x => Some (orth w x)) (y :: xs2))%list ->
  exists t', Orthogonalize orth t c w = (t', Ok tt) /\ tc_ortho t' = false /\ tc_log t' = tc_log t /\
    (forall c' o g, lst t' c' o g = if (String.eqb c c' && o && g)%bool then map (fun x => Some (orth w x)) (xs1 ++ y :: xs2)%list else lst t c' o g).
Proof. intros orth t c w v xs1 y xs2 Nc H Co L W Q N Z. exact (prefix_again orth t c w xs1 y xs2 Nc H Co L (same_width t w v W Q) N Z). Qed.
Print Assumptions C54_log_sampled_first_changed.
(** a template changed after one that did not: it stays without orthogonal template *)
Theorem C54_log_sampled_hole_refuted : forall orth t c w v x l z lo, lst t c false true = Some x :: l -> tc_width t = Some v -> (v == w)%Q -> lst t c true false <> [] ->
  lst t c true true = Some z :: lo -> exists t', Orthogonalize orth t c w = (t', Ok tt) /\ forall c' o g, lst t' c' o g = lst t c' o g.
Proof. intros orth t c w v x l z lo L W Q N Z. exact (hole_stays orth t c w x l z lo L (same_width t w v W Q) N Z). Qed.
Print Assumptions C54_log_sampled_hole_refuted.
(** the remembered LSF is the one of any category: a category met for the first time makes the old orthogonal templates of another one
    pass for up to date *)
Theorem C54_other_category_refuted : forall orth t c c' w1 w2 xs ys xs' ys', c' <> c -> c' <> ""%string -> (forall x, In x (xs' ++ ys')%list -> t_cat (orth w2 x) = c') ->
  lst t c' false false = map Some xs' -> lst t c' false true = map Some ys' -> lst t c' true false = [] -> lst t c' true true = [] ->
  xs <> [] -> ys <> [] -> lst t c false true = map Some ys ->
  lst t c true false = map (fun x => Some (orth w1 x)) xs -> lst t c true true = map (fun x => Some (orth w1 x)) ys ->
  exists t1 t2, Orthogonalize orth t c' w2 = (t1, Ok tt) /\ Orthogonalize orth t1 c w2 = (t2, Ok tt) /\
    lst t2 c true false = map (fun x => Some (orth w1 x)) xs /\ lst t2 c true true = map (fun x => Some (orth w1 x)) ys.
Proof. exact other_category. Qed.
Print Assumptions C54_other_category_refuted.
(** orthogonal log-sampled templates without the other ones are kept, whatever their LSF *)
Theorem C54_stale_log_sampled_refuted : forall orth t c w x l z lo ys, lst t c false false = map Some ys -> c <> ""%string -> (forall x, In x ys -> t_cat (orth w x) = c) ->
  lst t c false true = Some x :: l -> lst t c true false = [] -> lst t c true true = Some z :: lo ->
  exists t', Orthogonalize orth t c w = (t', Ok tt) /\ lst t' c true false = map (fun x => Some (orth w x)) ys /\ lst t' c true true = lst t c true true /\
    (exists v, tc_width t' = Some v /\ v == w)%Q.
Proof. exact stale_log. Qed.
Print Assumptions C54_stale_log_sampled_refuted.

(** ** C55 *)
(** no log-sampled template yet: all of them are rebinned *)
Theorem C55_first : forall needs rebin t c xs, c <> ""%string -> keeps_identity rebin -> (forall x, In x xs -> t_cat x = c) -> tc_ortho t = false ->
  lst t c false false = map Some xs -> lst t c false true = [] ->
  exists t', logRebinTemplateCatalog needs rebin t c = (t', Ok tt) /\ tc_ortho t' = false /\ tc_log t' = false /\ tc_width t' = tc_width t /\
    (forall c' o g, lst t' c' o g = if (String.eqb c c' && negb o && g)%bool then map (fun x => Some (rebin x)) xs else lst t c' o g).
Proof. exact rebin_first. Qed.
Print Assumptions C55_first.
(** otherwise the ones that do not fit the grid, and exactly the orthogonal templates of these ones are forgotten *)
Theorem C55_again : forall needs rebin t c xs ls, c <> ""%string -> keeps_identity rebin ->
  lst t c false false = map Some xs -> NoDup (map t_name xs) -> lst t c false true = map Some ls -> map t_name ls = map t_name xs -> ls <> [] ->
  (forall x, In x xs -> t_cat x = c) -> coherent t c -> tc_ortho t = false ->
  exists t', logRebinTemplateCatalog needs rebin t c = (t', Ok tt) /\ tc_ortho t' = false /\ tc_log t' = false /\ coherent t' c /\
    (forall c' o g, c' <> c \/ g = false -> lst t' c' o g = lst t c' o g) /\
    lst t' c false true = map (fun p => Some (if needs (snd p) then rebin (fst p) else snd p)) (combine xs ls) /\
    (forall j z, nth_error (lst t' c true true) j = Some (Some z) <-> nth_error (lst t c true true) j = Some (Some z) /\ forall l, nth_error ls j = Some l -> needs l = false).
Proof. exact rebin_again. Qed.
Print Assumptions C55_again.
(** a template added after the first rebinning is never rebinned *)
Theorem C55_added_since_refuted : forall needs rebin t c xs ls x post, c <> ""%string -> keeps_identity rebin ->
  lst t c false true = map Some ls -> ls <> [] -> (forall l, In l ls -> needs l = false) -> tc_ortho t = false -> lst t c false false = (map Some xs ++ Some x :: post)%list -> length xs = length ls ->
  exists t', logRebinTemplateCatalog needs rebin t c = (t', Ok tt) /\ forall c' o g, lst t' c' o g = lst t c' o g.
Proof. exact rebin_missing. Qed.
Print Assumptions C55_added_since_refuted.
(** a cleared template is dereferenced *)
Theorem C55_cleared_refuted : forall needs rebin t c pre post, (forall x, In x pre -> t_cat (rebin x) <> ""%string) -> tc_ortho t = false ->
  lst t c false false = (map Some pre ++ None :: post)%list -> lst t c false true = [] -> snd (logRebinTemplateCatalog needs rebin t c) = UB.
Proof. exact rebin_null. Qed.
Print Assumptions C55_cleared_refuted.

(** a catalog with two categories *)
Definition C54_x (n c : string) (d : Q) : tpl := mkTpl n c d.
Definition C54_orth (w : Q) (x : tpl) : tpl := mkTpl (t_name x) (t_cat x) (t_data x + w)%Q.
Definition C54_cat : tcat := fst (AddAll (tc_new false) [C54_x "a" "galaxy" 1; C54_x "b" "galaxy" 2; C54_x "s" "star" 3]).
Definition C54_log : tcat := fst (logRebinTemplateCatalog (fun _ => true) (fun x => mkTpl (t_name x) (t_cat x) (t_data x * 100)%Q) C54_cat "galaxy").
Definition C54_ort : tcat := fst (Orthogonalize C54_orth C54_log "galaxy" 7).
Definition C54_data (l : tlist) : list (option Q) := map (option_map t_data) l.
Example C54_nonvacuous :
  C54_data (lst C54_ort "galaxy" true false) = [Some (1 + 7); Some (2 + 7)]%Q /\ C54_data (lst C54_ort "galaxy" true true) = [Some (1 * 100 + 7); Some (2 * 100 + 7)]%Q /\
  tc_width C54_ort = Some 7%Q /\ coherent C54_ort "galaxy" /\
  (* the second template is rebinned: its orthogonal one goes and does not come back *)
  (let t := fst (logRebinTemplateCatalog (fun x => String.eqb (t_name x) "b") (fun x => mkTpl (t_name x) (t_cat x) (t_data x * 1000)%Q) C54_ort "galaxy") in
   C54_data (lst t "galaxy" false true) = [Some (1 * 100); Some (2 * 1000)]%Q /\
   C54_data (lst (fst (Orthogonalize C54_orth t "galaxy" 7)) "galaxy" true true) = [Some (1 * 100 + 7); None]%Q) /\
  (* the first one: it comes back *)
  (let t := fst (logRebinTemplateCatalog (fun x => String.eqb (t_name x) "a") (fun x => mkTpl (t_name x) (t_cat x) (t_data x * 1000)%Q) C54_ort "galaxy") in
   C54_data (lst (fst (Orthogonalize C54_orth t "galaxy" 7)) "galaxy" true true) = [Some (1 * 1000 + 7); Some (2 * 100 + 7)]%Q) /\
  (* another LSF, stars first: the galaxies keep the old one *)
  (let t := fst (Orthogonalize C54_orth C54_ort "star" 9) in
   C54_data (lst (fst (Orthogonalize C54_orth t "galaxy" 9)) "galaxy" true false) = [Some (1 + 7); Some (2 + 7)]%Q) /\
  C54_data (lst (fst (Orthogonalize C54_orth C54_ort "galaxy" 9)) "galaxy" true false) = [Some (1 + 9); Some (2 + 9)]%Q.
Proof. repeat split. intros [|] [|] [|] [|] D; try discriminate; right; reflexivity. Qed.
