(** C92: examples and counterexamples. *)
From Verif Require Import Base RangeModel AxisModel EfitModel F64 StatModel StatSpec StatProofs StatProofs2 StatProofs3.
Open Scope Q_scope.

Definition usable_b (o : spc) : bool :=
  let n := length (s_axis o) in
  (fix inc (l : list Q) := match l with x :: t => match t with y :: _ => Qltb x y && inc t | [] => true end | [] => true end) (s_axis o)
  && (0 <? n)%nat && (length (s_raw o) =? n)%nat && (length (s_noc o) =? n)%nat && (length (s_err o) =? n)%nat
  && (length (s_cont o) =? n)%nat && (length (s_model o) =? n)%nat && forallb (fun e => negb (Qeq_bool e 0)) (s_err o).
Lemma inc_spec l : (fix inc (l : list Q) := match l with x :: t => match t with y :: _ => Qltb x y && inc t | [] => true end | [] => true end) l = true ->
  strictly_increasing l.
Proof.
  induction l as [|x t IH]; intro H.
  - intros i j a b _ A. destruct i; discriminate.
  - destruct t as [|y t'].
    + intros i j a b L A B. destruct j as [|j]; [lia|]. destruct j; discriminate.
    + apply andb_true_iff in H. destruct H as (H1 & H2). apply Qltb_true in H1. specialize (IH H2).
      intros i j a b L A B. destruct j as [|j]; [lia|]. cbn in B. destruct i as [|i].
      * cbn in A. inversion A; subst. destruct j as [|j]; [cbn in B; inversion B; subst; auto|].
        apply Qlt_trans with y; auto. apply (IH 0%nat (S j) y b); auto. lia.
      * cbn in A. apply (IH i j a b); auto. lia.
Qed.
Lemma usable_check o : usable_b o = true -> usable o.
Proof.
  unfold usable_b, usable. rewrite !andb_true_iff, !Nat.eqb_eq, Nat.ltb_lt. intros (((((((A & B) & C) & D) & E) & F) & G) & H).
  repeat (split; [solve [auto using inc_spec]|]). intros e He Z0. rewrite forallb_forall in H. specialize (H e He).
  rewrite (proj2 (Qeq_bool_iff _ _) Z0) in H. discriminate.
Qed.

(** six samples; range 2..5; lines under the samples 2 and 3 *)
Definition ex_o : spc := mkSpc [1; 2; 3; 4; 5; 6] (mkRange 2 5) [3; 4; 9; 8; 4; 3] [0; 1; 6; 5; 1; 0] [1; 2; 1; 2; 1; 1] [3; 3; 3; 3; 3; 3] [3; 3; 8; 9; 3; 3] [2%nat; 3%nat].
Lemma ex_usable : usable ex_o. Proof. apply usable_check. reflexivity. Qed.
Lemma ex_sup : sup_ok ex_o. Proof. intros j [<-|[<-|[]]]; cbn; lia. Qed.
Lemma ex_counted : counted ex_o = [1; 2; 3]%nat /\ inside_range ex_o = [1; 2; 3; 4]%nat /\ out_of_lines ex_o = [1%nat] /\ ordered (s_range ex_o).
Proof. repeat apply conj; try reflexivity. unfold ordered. cbn. lra. Qed.

(** a template of constant flux fitted with the amplitude 1 on a spectrum of three samples, all in the range *)
Definition ex_t : spc := mkSpc [1; 2; 3] (mkRange 1 3) [1; 1; 5] [0; 0; 4] [1; 1; 1] [1; 1; 1] [1; 1; 1] [].
Definition ex_fit : cfit := mkCfit 1 7 3 0.
Lemma fast_closed : exists o c (tpl : nat -> Q) v dtd, usable o /\ ordered (s_range o) /\
  (forall j, (j < 3)%nat -> at_ (s_cont o) j == c_amp c * tpl j) /\
  c_dtm c == total (fun j => at_ (s_raw o) j * tpl j / sq (at_ (s_err o) j)) (inside_range o) /\
  c_mtm c == total (fun j => sq (tpl j) / sq (at_ (s_err o) j)) (inside_range o) /\
  EstimateDTransposeD [o] false = Ok dtd /\ getLeastSquareContinuumMerit [o] TplFit c = Ok v /\ v == 0 /\
  getLeastSquareContinuumMeritFast dtd TplFit c == -9.
Proof.
  exists ex_t, ex_fit, (fun _ => 1). eexists. eexists.
  split; [apply usable_check; reflexivity|]. split; [unfold ordered; cbn; lra|].
  split; [intros [|[|[|j]]] L; [reflexivity|reflexivity|reflexivity|lia]|].
  split; [reflexivity|]. split; [reflexivity|]. split; [reflexivity|]. split; [reflexivity|]. split; reflexivity.
Qed.

Lemma count_differs : exists o, usable o /\ ordered (s_range o) /\ length (inside_range o) = 3%nat /\ computeSpcNSamples [o] = Ok 2%nat.
Proof. exists ex_t. split; [apply usable_check; reflexivity|]. split; [unfold ordered; cbn; lra|]. split; reflexivity. Qed.
Lemma count_reversed : exists o, usable o /\ counted o = [] /\ computeSpcNSamples [o] = Ok 3%nat.
Proof.
  exists (mkSpc (s_axis ex_o) (mkRange 5 2) (s_raw ex_o) (s_noc ex_o) (s_err ex_o) (s_cont ex_o) (s_model ex_o) []).
  split; [apply usable_check; reflexivity|]. split; reflexivity.
Qed.

Lemma stale : exists o h l s d1 d2, usable o /\ other_range (h_range h) (s_range o) /\
  history (fun _ => 0) 0 [o] (TplFit, h) l = Ok s /\ fst s = NoContinuum /\
  getDTransposeD (fun _ => 0) 0 [o] s = Ok d1 /\ EstimateDTransposeD [o] (negb (isTpl (fst s))) = Ok d2 /\ ~ d1 == d2.
Proof.
  exists ex_t, (mkCache (mkRange 0 0) 0 0), [Ask; SetComponent NoContinuum]. eexists. eexists. eexists.
  split; [apply usable_check; reflexivity|]. split; [apply range_ne_spec; reflexivity|]. split; [reflexivity|]. split; [reflexivity|]. split; [reflexivity|].
  split; [reflexivity|]. intro H. vm_compute in H. discriminate.
Qed.

Definition ones (n : nat) : list Q := repeat 1 n.
Definition ramp (n : nat) : list Q := map (fun k => inject_Z (Z.of_nat k)) (seq 0 n).
Definition ex_l (n : nat) : spc := mkSpc (ramp n) (mkRange 0 100) (ones n) (ones n) (ones n) (repeat 0 n) (ones n) [].
Definition emis (l : list support) : list selt := [mkSelt true (map (mkSline false) l)].
(** 0..4 and 10..14, then 3..11 which overlaps both: the indexes 10 and 11 count twice: 17 and not 15 *)
Definition union_of (el : list selt) : list nat := nodup Nat.eq_dec (concat (map indexes (line_supports el))).
Lemma chained : exists o el f v, usable o /\ (forall p, emission_support el p -> wide p /\ (p_end p < length (s_axis o))%nat) /\
  (forall sqrtf, getCumulSNRStrongEL sqrtf [o] el = Ok (snr sqrtf f v, snr sqrtf 0 0)) /\
  v == 17 /\ total (fun i => sq (at_ (s_err o) i)) (union_of el) == 15.
Proof.
  exists (ex_l 16), (emis [mkSup 0 4 false; mkSup 10 14 false; mkSup 3 11 false]). eexists. eexists.
  split; [apply usable_check; reflexivity|].
  split. { intros p Hp. apply line_supports_in in Hp. destruct Hp as [<-|[<-|[<-|[]]]]; cbn; unfold wide; cbn; lia. }
  split; [intro sqrtf; reflexivity|]. split; reflexivity.
Qed.
(** 0..2 and 2..4: the index 2 counts twice *)
Lemma touching : exists o el f v, usable o /\ (forall p, emission_support el p -> wide p /\ (p_end p < length (s_axis o))%nat) /\
  by_start (line_supports el) /\ (forall sqrtf, getCumulSNRStrongEL sqrtf [o] el = Ok (snr sqrtf f v, snr sqrtf 0 0)) /\
  v == 6 /\ total (fun i => sq (at_ (s_err o) i)) (union_of el) == 5.
Proof.
  exists (ex_l 6), (emis [mkSup 0 2 false; mkSup 2 4 false]). eexists. eexists.
  split; [apply usable_check; reflexivity|].
  split. { intros p Hp. apply line_supports_in in Hp. destruct Hp as [<-|[<-|[]]]; cbn; unfold wide; cbn; lia. }
  split. { apply pairwise_cons; [intros p [<-|[]]; cbn; lia|]. apply pairwise_cons; [intros p []|]. intros [|i] j p q _ A; discriminate. }
  split; [intro sqrtf; reflexivity|]. split; reflexivity.
Qed.
(** a line of one sample *)
Lemma one_sample : exists o el, usable o /\ emission_support el (mkSup 3 3 true) /\ flux_under o (mkSup 3 3 true) == 1 /\
  forall sqrtf, sqrtf 0 == 0 -> getCumulSNRStrongEL sqrtf [o] el = Ok (NaN, NaN).
Proof.
  exists (ex_l 6), (emis [mkSup 3 3 true]). split; [apply usable_check; reflexivity|].
  split. { apply line_supports_in. cbn. auto. } split; [reflexivity|].
  intros sqrtf H. cbn. unfold snr. change (0 + 0) with 0. destruct (Qeq_bool_spec (sqrtf 0) 0) as [E|N]; [|contradiction]. reflexivity.
Qed.

(** two lines apart, one strong *)
Definition ex_el : list selt := [mkSelt true [mkSline false (mkSup 0 1 true); mkSline true (mkSup 0 5 true)]; mkSelt false [mkSline false (mkSup 0 5 true)];
  mkSelt true [mkSline false (mkSup 2 4 false)]].
Lemma ex_el_apart : pairwise apart (line_supports ex_el) /\ forall p, emission_support ex_el p -> wide p /\ (p_end p < length (s_axis ex_o))%nat.
Proof.
  split.
  - apply pairwise_cons; [intros p [<-|[]]; intros i (A & B); unfold under in *; cbn in *; lia|]. apply pairwise_cons; [intros p []|]. intros [|i] j p q _ A; discriminate.
  - intros p Hp. apply line_supports_in in Hp. destruct Hp as [<-|[<-|[]]]; cbn; unfold wide; cbn; lia.
Qed.
Lemma ex_el_value : exists f v sf sv, getCumulSNRStrongEL (fun x => x) [ex_o] ex_el = Ok (snr (fun x => x) f v, snr (fun x => x) sf sv) /\
  f == 11 /\ v == 11 /\ sf == 0 /\ sv == 5.
Proof. eexists. eexists. eexists. eexists. split; [reflexivity|]. repeat apply conj; reflexivity. Qed.
Lemma ex_merge : merge 3 [mkSup 0 4 false; mkSup 2 6 true; mkSup 8 9 false] = [mkSup 0 6 true; mkSup 8 9 false].
Proof. reflexivity. Qed.
