(** C90: the whole sequence of redshifts. *)
From Coq Require Import String Sorting.Sorted.
From Verif Require Import Base RangeModel RangeProofs F64 RatSpec LyaModel LyaSpec LyaProofs LyaProofs2 LyaProofs3 LyaProofs4 LyaProofs5.
Open Scope Q_scope.

Lemma similar_remap g es : (forall k i p, prof es k i = Some p -> (first_marked es k i -> isAsym p = true -> isAsym (g k i p) = true) /\
  (~ (first_marked es k i /\ isAsym p = true) -> similar_p p (g k i p))) -> similar es (remap g es).
Proof. intro H. split; [apply remap_shape|]. intros k i p q P Q. rewrite remap_prof, P in Q. cbn [option_map] in Q. injection Q as <-. apply H. exact P. Qed.
(** the limits of the parameters give a grid *)
Definition grids (v : env) : Prop := (exists ws, steps (v_width v) = Ok ws) /\ (exists as_, steps (v_asym v) = Ok as_) /\ exists ds, steps (v_delta v) = Ok ds.
Lemma sim_final p g1 g2 : (forall p, kind (g1 p) = kind p /\ similar_p p (g1 p)) -> (forall p, kind (g2 p) = kind p /\ similar_p p (g2 p)) -> kind (g2 (g1 p)) = kind p /\ similar_p p (g2 (g1 p)).
Proof.
  intros H1 H2. destruct (H1 p) as (A1 & B1). destruct (H2 (g1 p)) as (A2 & B2). split; [congruence|].
  destruct p; destruct (g1 _); cbn in *; try discriminate; destruct (g2 _); cbn in *; try discriminate; try congruence; destruct B1, B2; split; congruence.
Qed.
Lemma put_asym_ks k0 a k p : kind (put_asym k0 a k p) = kind p /\ similar_p p (put_asym k0 a k p).
Proof. destruct p; cbn; auto. destruct (Nat.eqb k k0); cbn; auto. Qed.
Lemma put_igm_ks ks c z k p : kind (put_igm ks c z k p) = kind p /\ similar_p p (put_igm ks c z k p).
Proof. destruct p; cbn; auto. destruct (existsb (Nat.eqb k) ks); cbn; auto. Qed.
Lemma reset_ks p : kind (resetParams p) = kind p /\ similar_p p (resetParams p).
Proof. destruct p; cbn; auto. destruct fit; cbn; auto. Qed.
Lemma igm_of_ks cont z p : kind (igm_of cont z p) = kind p /\ similar_p p (igm_of cont z p).
Proof. destruct p; cbn; auto. destruct cont; cbn; auto. Qed.
Lemma id_ks (p : profile) : kind p = kind p /\ similar_p p p.
Proof. destruct p; cbn; auto. Qed.
Lemma first_shape es es' k i : same_shape es es' -> first_marked es' k i -> first_marked es k i.
Proof. intros S F. exact (shape_first _ _ _ _ (shape_sym _ _ S) F). Qed.

Lemma prepare_similar v f cont z cat es es' : wf es -> grids v ->
  (forall k i id, first_marked es k i -> line_id es k i = Some id -> exists ref, at_ cat id = Ok ref /\ isAsym ref = true) ->
  prepare v f cont z cat es = Ok es' -> similar es es'.
Proof.
  intros W ((ws & E1) & (as_ & E2) & (ds & E3)) HC E. unfold prepare in E. destruct (igm_dec es) as [Nm|(k0 & i0 & F)].
  - rewrite (set_none _ _ _ _ _ Nm) in E. cbn [rbind] in E. rewrite (reset_spec _ W) in E. cbn [rbind] in E.
    assert (Er : remap (fun _ _ p => resetParams p) es = es). { rewrite <- (remap_id es) at 2. apply remap_ext. intros k i p P. pose proof (unmarked_plain es k i p W Nm P) as U. destruct p; cbn in *; try discriminate; reflexivity. }
    rewrite Er, (fit_none v z es Nm) in E. injection E as <-. rewrite <- (remap_id es) at 2. apply similar_remap. intros k i p P. split; [auto|intros _; apply id_ks].
  - destruct (first_some es k0 i0 F W) as (e & x & Ne & I & Nx).
    assert (P : prof es k0 i0 = Some (snd x)) by (unfold prof; rewrite Ne, Nx; reflexivity). assert (Id : line_id es k0 i0 = Some (fst x)) by (unfold line_id; rewrite Ne, Nx; reflexivity).
    destruct (HC k0 i0 (fst x) F Id) as (ref & R & Ar).
    destruct (setLyaProfile f cont z cat es) as [s1|er|] eqn:Es; cbn [rbind] in E; try discriminate.
    destruct (prepare_total_wf _ _ _ _ _ _ W Es) as (W1 & S1). rewrite (set_spec f cont z cat es k0 i0 _ _ ref W F P Id (fun _ => R)) in Es. injection Es as <-.
    rewrite (reset_spec _ W1) in E. cbn [rbind] in E. rewrite remap_remap in E. set (g0 := fun k i p => resetParams (set_fun f cont z ref k0 i0 k i p)) in E.
    assert (S2 : same_shape es (remap g0 es)) by apply remap_shape.
    assert (W2 : wf (remap g0 es)). { unfold g0. rewrite <- (remap_remap (fun _ _ p => resetParams p)). apply wf_kind; [exact W1|]. intros; apply reset_kind. }
    pose proof (shape_first _ _ _ _ S2 F) as F2.
    destruct (first_some _ k0 i0 F2 W2) as (e2 & x2 & Ne2 & I2 & Nx2). assert (P2 : prof (remap g0 es) k0 i0 = Some (snd x2)) by (unfold prof; rewrite Ne2, Nx2; reflexivity).
    destruct (fit_spec v z (remap g0 es) k0 i0 (snd x2) e2 ws as_ ds W2 F2 P2 Ne2 E1 E2 E3) as (ks & c & es1 & _ & _ & B1 & B2 & _ & Ef). rewrite Ef in E. injection E as <-.
    assert (X : exists g1, es1 = remap g1 (remap g0 es) /\ forall k i p, kind (g1 k i p) = kind p /\ similar_p p (g1 k i p)).
    { destruct (isAsymFit (snd x2)) eqn:T1; [destruct (nth i0 (e_out e2) false) eqn:T2|].
      - exists (fun _ _ p => p). rewrite remap_id. split; [apply B2; auto|]. intros; apply id_ks.
      - destruct (B1 eq_refl eq_refl) as (a & _ & Ea). exists (fun k _ p => put_asym k0 a k p). split; [exact Ea|]. intros; apply put_asym_ks.
      - exists (fun _ _ p => p). rewrite remap_id. split; [apply B2; auto|]. intros; apply id_ks. }
    destruct X as (g1 & -> & H1). rewrite !remap_remap. apply similar_remap. intros k i p Pp.
    assert (Q : forall q, kind (put_igm ks c z k (g1 k i (resetParams (igm_of cont z q)))) = kind q /\ similar_p q (put_igm ks c z k (g1 k i (resetParams (igm_of cont z q))))).
    { intro q. apply (sim_final q (igm_of cont z) (fun q => put_igm ks c z k (g1 k i (resetParams q))) (igm_of_ks cont z)). intro q1.
      apply (sim_final q1 resetParams (fun q => put_igm ks c z k (g1 k i q)) reset_ks). intro q2. apply (sim_final q2 (g1 k i) (put_igm ks c z k)); intro; [apply H1|apply put_igm_ks]. }
    unfold g0, set_fun. destruct (Nat.eqb_spec k k0) as [Ek|Nk]; [destruct (Nat.eqb_spec i i0) as [Ei|Ni]|]; cbn [andb].
    + subst k i. destruct (isAsym p) eqn:Ap.
      * split; [|intro H; exfalso; apply H; auto]. intros _ _. destruct (Q (chosen f ref)) as (Kq & _). destruct (kind_flags _ _ Kq) as (Ka & _). rewrite Ka.
        destruct ref; cbn in *; try discriminate; [destruct (f_force f)|destruct (f_disable f)]; reflexivity.
      * split; [intros; discriminate|]. intros _. apply Q.
    + split; [|intros _; apply Q]. intros Fk _. exfalso. apply Ni. apply (first_unique es k i k0 i0 Fk F).
    + split; [|intros _; apply Q]. intros Fk _. exfalso. apply Nk. apply (first_unique es k i k0 i0 Fk F).
Qed.
(** one visit: the flags, the continuum, the redshift and the catalogue of the ratio *)
Definition visit : Type := flags * option Z * Q * list (Z * profile).
Fixpoint visits (v : env) (l : list visit) (es : list elt) : res (list elt) :=
  match l with [] => Ok es | (f, cont, z, cat) :: t => do es <- prepare v f cont z cat es; visits v t es end.
Lemma visits_spec v es : wf es -> grids v -> forall l f cont z cat es', 
  (forall k i id, first_marked es k i -> line_id es k i = Some id -> forall x, In x l -> exists ref, at_ (snd x) id = Ok ref /\ isAsym ref = true) ->
  visits v l es = Ok es' -> prepare v f cont z cat es' = prepare v f cont z cat es.
Proof.
  intros W G. assert (X : forall l s es', similar es s -> (forall k i id, first_marked es k i -> line_id es k i = Some id -> forall x, In x l -> exists ref, at_ (snd x) id = Ok ref /\ isAsym ref = true) ->
    visits v l s = Ok es' -> similar es es').
  { induction l as [|[[[f cont] z] cat] t IH]; intros s es' Ss HC E; [cbn in E; injection E as <-; exact Ss|]. cbn [visits] in E. rewrite (history_spec v f cont z cat es s W Ss) in E.
    destruct (prepare v f cont z cat es) as [s1|er|] eqn:Ep; cbn [rbind] in E; try discriminate. apply (IH s1 es'); auto.
    - apply (prepare_similar v f cont z cat es s1 W G); [|exact Ep]. intros k i id F L. apply (HC k i id F L (f, cont, z, cat)). left. reflexivity.
    - intros k i id F L y I. apply (HC k i id F L). right. exact I. }
  intros l f cont z cat es' HC E. apply history_spec; [exact W|]. apply (X l es es'); auto. rewrite <- (remap_id es) at 2. apply similar_remap. intros k i p P. split; [auto|intros _; apply id_ks].
Qed.
Lemma ex_visits : grids (envx 3 1) /\ (forall k i id, first_marked esx k i -> line_id esx k i = Some id -> exists ref, at_ catx id = Ok ref /\ isAsym ref = true) /\
  exists es', visits (envx 3 1) [(off, None, 5, catx); (setPassMode 1 off, Some 2%Z, 4, catx)] esx = Ok es'.
Proof.
  split; [unfold grids; cbn [envx v_width v_asym v_delta]; repeat split; eexists; vm_compute; reflexivity|]. split.
  - intros k i id F L. destruct (first_unique _ _ _ _ _ F esx_first) as (-> & ->). vm_compute in L. injection L as <-. eexists. split; reflexivity.
  - destruct (visits (envx 3 1) [(off, None, 5, catx); (setPassMode 1 off, Some 2%Z, 4, catx)] esx) as [r|e|] eqn:E; [eexists; reflexivity| |]; exfalso;
    assert (X : match visits (envx 3 1) [(off, None, 5, catx); (setPassMode 1 off, Some 2%Z, 4, catx)] esx with Ok _ => true | _ => false end = true) by (vm_compute; reflexivity); rewrite E in X; discriminate.
Qed.

(** the support, in widths of the line *)
Lemma support_spec n a c : (forall f i z, GetNSigmaSupport (Sym n) = n /\ GetNSigmaSupport (Lor n) = n /\ GetNSigmaSupport (Igm n f i z) = n) /\
  GetNSigmaSupport (Fixed n a c) = GetNSigmaSupport (Fit n a c) /\
  (c = "mean"%string \/ c = "mode"%string -> GetNSigmaSupport (Fit n a c) == (5 # 2) * n * a_sigma a) /\ (c <> "mean"%string -> c <> "mode"%string -> GetNSigmaSupport (Fit n a c) == n * a_sigma a).
Proof.
  split; [auto|]. split; [reflexivity|]. cbn [GetNSigmaSupport]. unfold constSigma. split.
  - intros [-> | ->]; cbn [String.eqb Ascii.eqb Bool.eqb orb]; ring.
  - intros N M. apply String.eqb_neq in N, M. rewrite N, M. cbn [orb]. ring.
Qed.
