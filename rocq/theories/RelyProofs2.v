From Coq Require Import String Reals Lra Lia.
From Verif Require Import Base RdrModel RdrProofs RelyModel RelySpec.
Open Scope string_scope.
Open Scope R_scope.

Lemma shortest (t : dict (list R)) n : (forall e, In e t -> List.length (snd e) = n) -> fold_left (fun n c => Nat.min n (List.length (snd c))) t n = n.
Proof.
  induction t as [| e t IH]; intros H; cbn; [reflexivity |].
  rewrite (H e (or_introl eq_refl)), Nat.min_id. apply IH. intros x X. apply H. right. exact X.
Qed.
Lemma rows_rect cols n : NoDup (dkeys cols) -> rectangular cols n -> rows cols = map (fun i => map (fun c => (fst c, nth i (snd c) 0)) cols) (seq 0 n).
Proof.
  intros N [NE H]. assert (L : forall e, In e cols -> List.length (snd e) = n).
  { intros [k c] E. apply (H k). apply in_dget; assumption. }
  destruct cols as [| c t]; [contradiction |]. cbn [rows].
  rewrite (L c (or_introl eq_refl)), shortest; [reflexivity |]. intros e E. apply L. right. exact E.
Qed.
Lemma row_cell cols i k : dget k (map (fun c : string * list R => (fst c, nth i (snd c) 0)) cols) = option_map (fun c => nth i c 0) (dget k cols).
Proof.
  induction cols as [| [k' c] t IH]; cbn [map fst snd]; [reflexivity |].
  unfold dget in *. cbn [find fst snd option_map]. destruct (_ =? _); [reflexivity | exact IH].
Qed.
Lemma cell_val cols n i k x : rectangular cols n -> (i < n)%nat ->
  cell k (map (fun c : string * list R => (fst c, nth i (snd c) 0)) cols) = Val x -> entry cols k i x.
Proof.
  intros [_ H] I'. unfold cell. rewrite row_cell. destruct (dget k cols) as [c |] eqn:D; cbn [option_map]; [| discriminate].
  intros X. apply Val_inj in X. subst. exists c. split; [exact D |]. apply nth_error_nth'. rewrite (H k c D). exact I'.
Qed.
Lemma cell_in cols i k : In k (dkeys cols) -> exists x, cell k (map (fun c : string * list R => (fst c, nth i (snd c) 0)) cols) = Val x.
Proof. intros K. apply dget_key in K. destruct K as [c C]. unfold cell. rewrite row_cell, C. eexists; reflexivity. Qed.
Lemma param_at first_pass cols n i p : rectangular cols n -> (i < n)%nat ->
  param_of first_pass (map (fun c : string * list R => (fst c, nth i (snd c) 0)) cols) = Val p -> grid_at first_pass cols i p.
Proof.
  intros Rc I' H. unfold param_of in H. destruct first_pass.
  - apply pbind_inv in H. destruct H as (a & A & H). apply pbind_inv in H. destruct H as (b & B & H). apply pbind_inv in H. destruct H as (s & S' & H).
    apply Val_inj in H. subst. cbn. repeat split; eapply cell_val; eassumption.
  - apply pbind_inv in H. destruct H as (a & A & H). apply pbind_inv in H. destruct H as (b & B & H). apply pbind_inv in H. destruct H as (s & S' & H).
    apply pbind_inv in H. destruct H as (c & C & H). apply Val_inj in H. subst. cbn.
    split; [eapply cell_val; eassumption |]. split; [eapply cell_val; eassumption |]. split; [eapply cell_val; eassumption |].
    exists c. split; [reflexivity | eapply cell_val; eassumption].
Qed.
Lemma Forall2_nth {A B} (P : A -> B -> Prop) l r : Forall2 P l r -> List.length l = List.length r /\ forall i b, nth_error r i = Some b -> exists a, nth_error l i = Some a /\ P a b.
Proof.
  induction 1 as [| a b l r H F IH]; [split; [reflexivity |]; intros [| i] b; discriminate |].
  destruct IH as [L IH]. split; [cbn; congruence |]. intros [| i] y Y; cbn in *; [injection Y as <-; eauto | apply IH; exact Y].
Qed.
Lemma nth_seq0 n i x : nth_error (seq 0 n) i = Some x -> x = i /\ (i < n)%nat.
Proof.
  intros H. assert (L : (i < List.length (seq 0 n))%nat) by (apply nth_error_Some; congruence). rewrite seq_length in L.
  apply (nth_error_nth _ _ 0%nat) in H. rewrite seq_nth in H by exact L. subst. split; [reflexivity | exact L].
Qed.
Theorem params_rows first_pass cols n l : NoDup (dkeys cols) -> rectangular cols n -> buildPdfParams first_pass cols = Val l ->
  List.length l = n /\ forall i p, nth_error l i = Some p -> grid_at first_pass cols i p.
Proof.
  intros N Rc H. unfold buildPdfParams in H. rewrite (rows_rect _ _ N Rc) in H. apply pmap_ok, Forall2_nth in H. destruct H as [L H].
  rewrite map_length, seq_length in L. split; [congruence |]. intros i p P. destruct (H i p P) as (r & K & E).
  rewrite nth_error_map in K. destruct (nth_error (seq 0 n) i) as [j |] eqn:J; [| discriminate]. apply nth_seq0 in J. destruct J as [-> J].
  cbn [option_map] in K. injection K as K. rewrite <- K in E. eapply param_at; eassumption.
Qed.
Theorem params_total first_pass cols n : NoDup (dkeys cols) -> rectangular cols n -> (forall k, In k (columns first_pass) -> In k (dkeys cols)) ->
  exists l, buildPdfParams first_pass cols = Val l.
Proof.
  intros N Rc K. unfold buildPdfParams. rewrite (rows_rect _ _ N Rc). apply pmap_total. intros r R0. apply in_map_iff in R0. destruct R0 as (i & <- & _).
  unfold param_of. destruct first_pass; cbn [columns] in K.
  - destruct (cell_in cols i "FPZmin") as [a A]; [apply K; cbn; tauto |]. destruct (cell_in cols i "FPZmax") as [b B]; [apply K; cbn; tauto |].
    destruct (cell_in cols i "FPZstep") as [s S']; [apply K; cbn; tauto |]. rewrite A, B, S'. eexists; reflexivity.
  - destruct (cell_in cols i "zmin") as [a A]; [apply K; cbn; tauto |]. destruct (cell_in cols i "zmax") as [b B]; [apply K; cbn; tauto |].
    destruct (cell_in cols i "zstep") as [s S']; [apply K; cbn; tauto |]. destruct (cell_in cols i "zcenter") as [c C]; [apply K; cbn; tauto |].
    rewrite A, B, S', C. eexists; reflexivity.
Qed.
Theorem params_refuted : exists cols l, buildPdfParams false cols = Val l /\ entry cols "zmin" 1 1 /\ List.length l = 1%nat.
Proof.
  exists [("zmin", [0; 1]); ("zmax", [2]); ("zstep", [1]); ("zcenter", [1])], [mkParam 0 2 1 (Some 1)].
  split; [reflexivity |]. split; [exists [0; 1]; split; reflexivity | reflexivity].
Qed.

Theorem subtypes_each catalog n ratio l : sub_types catalog n ratio = Val l ->
  List.length l = n /\ forall i s, nth_error l i = Some s -> exists r conf, ratio i = Val r /\ dget r catalog = Some conf /\ dget "sub_type" conf = Some s.
Proof.
  intros H. apply pmap_ok, Forall2_nth in H. destruct H as [L H]. rewrite seq_length in L. split; [congruence |].
  intros i s E. destruct (H i s E) as (j & J & K). apply nth_seq0 in J. destruct J as [-> _].
  apply pbind_inv in K. destruct K as (r & R0 & K). unfold get_sub_type in K.
  destruct (dget r catalog) as [conf |] eqn:C; [| discriminate]. destruct (dget "sub_type" conf) as [t |] eqn:T; [| discriminate].
  apply Val_inj in K. subst. exists r, conf. auto.
Qed.
Theorem subtypes_total catalog n ratio : (forall i, (i < n)%nat -> exists r conf s, ratio i = Val r /\ dget r catalog = Some conf /\ dget "sub_type" conf = Some s) ->
  exists l, sub_types catalog n ratio = Val l.
Proof.
  intros H. apply pmap_total. intros i E. apply in_seq in E. destruct (H i ltac:(lia)) as (r & conf & s & A & B & C).
  exists s. rewrite A. cbn [pbind]. unfold get_sub_type. rewrite B, C. reflexivity.
Qed.
