From Coq Require Import String.
From Verif Require Import Base RangeModel RangeSpec RangeProofs CalzModel FitStoreModel FitStoreSpec FitStoreProofs FitStoreProps PreModel PreSpec PreProofs PreProofs2 PreProofs3.
Open Scope Q_scope.

Lemma first_pass_spec op c zs s : zs <> [] -> distinct zs -> op_ok c (o_op s) -> tplfit (o_comp s) = true ->
  let fft := uses_fft c 1 zs in let reqs := requests c fft zs (everything c fft) in
  k_tpls c fft <> [] -> (k_maxN c <= List.length (k_tpls c fft))%nat ->
  exists t m, holds op reqs zs t /\ strongest op reqs zs m /\ decided c (with_pass s 1) m (rmap o_comp (first_pass op c zs s)) /\
    forall s', first_pass op c zs s = Ok s' -> o_first s' = Some t /\ o_used s' = Some t /\ op_ok c (o_op s') /\ o_cands s' = o_cands s /\ o_second s' = o_second s.
Proof.
  intros Nz Dz Ok_ T fft reqs Nt Lm. unfold first_pass. cbn [with_pass o_comp]. rewrite T.
  destruct (precompute_spec op c zs (-1)%Z (with_pass s 1) (everything c fft) Nz Dz Ok_) as (t & m & H1 & H2 & H3 & H4 & H5 & H6 & H7).
  - reflexivity.
  - unfold everything. rewrite map_length. exact Lm.
  - unfold everything. fold fft. destruct (k_tpls c fft); [tauto|discriminate].
  - exists t, m. split; [exact H1|]. split; [exact H5|]. split.
    + unfold decided in H6 |- *. clear -H6. destruct (PrecomputeContinuumFit op c zs (-1)%Z (with_pass s 1)) as [[t' s']|e|]; cbn in *; exact H6.
    + intros s' E. destruct (PrecomputeContinuumFit op c zs (-1)%Z (with_pass s 1)) as [[t' s1]|e|]; try discriminate. cbn in E. injection E as <-.
      destruct (H7 t' s1 eq_refl) as (-> & ->). cbn. repeat split; reflexivity.
Qed.
(** without the templates the first pass is the identity *)
Lemma first_pass_none op c zs s : tplfit (o_comp s) = false -> first_pass op c zs s = Ok (with_pass s 1).
Proof. intro T. unfold first_pass. cbn [with_pass o_comp]. rewrite T. reflexivity. Qed.
Lemma fft_any_history c pass : forall zss op, op_ok c op -> zss <> [] ->
  let zs := last zss [] in
  fold_left (fun o z => prepare_operator c (isfftprocessingActive c pass (List.length z)) o) zss op = Some (uses_fft c pass zs, (k_ignore c && negb (uses_fft c pass zs))%bool).
Proof.
  induction zss as [|z t IH]; intros op O N; [tauto|]. cbn [fold_left]. rewrite fft_spec. rewrite prepare_spec by exact O.
  destruct t as [|z' t]; [reflexivity|]. change (last (z :: z' :: t) []) with (last (z' :: t) []). apply IH; [reflexivity|discriminate].
Qed.
(** a null operator never reaches the fit: the templates are asked with the flags of [requests] whatever the fits before *)

(** ** small cases: merits and significances are integers *)
Definition opx (q : request) (i : nat) : fitrec :=
  let a := if String.eqb (q_tpl q) "a" then 1%Z else 2%Z in
  mkF (inject_Z (Z.of_nat i * 2 + a)) (inject_Z (3 * a - 5)) (inject_Z a) a (Some (inject_Z a)).
Definition calx : calz := mkCalz [] 3 1 0 [] 0 0 1.
Definition cfgx (neg null : Q) : config := mkCfg false false true 2 true true neg null (fun _ => ["a"; "b"]%string) calx.
Definition stx (k : component) : state := mkSt None k 1 0 None [] [1; 3] None.
Definition compZ (k : component) : nat := match k with TplFit => 0 | TplFitAuto => 1 | FromSpectrum => 2 | NoContinuum => 3 end%nat.
Definition showx (r : res state) : option (nat * option (bool * bool) * list nat) :=
  match r with Ok s => Some (compZ (o_comp s), o_op s, map (fun o => match o with Some t => List.length (t_all t) | None => 0%nat end) (o_second s)) | _ => None end.
(** the best template is a, of significance -2: below the threshold -1 of negative continuum *)
Lemma ex_neg : first_pass opx (cfgx (-1) 1) [1; 2; 3] (stx TplFit) = Throw NEGATIVE_CONTINUUM /\
  showx (first_pass opx (cfgx (-1) 1) [1; 2; 3] (stx TplFitAuto)) = Some (2%nat, Some (false, true), []) /\
  showx (first_pass opx (cfgx (-3) 1) [1; 2; 3] (stx TplFitAuto)) = Some (3%nat, Some (false, true), []) /\
  showx (first_pass opx (cfgx (-3) (-2)) [1; 2; 3] (stx TplFitAuto)) = Some (1%nat, Some (false, true), []).
Proof. repeat split; vm_compute; reflexivity. Qed.
(** in the second pass the same negative continuum changes nothing *)
Definition second_neg : res state := do s <- first_pass opx (cfgx (-3) (-2)) [1; 2; 3] (stx TplFitAuto); second_pass opx (cfgx (-1) 1) "reFitFirstPass" [[1]; [2; 3]] s.
Lemma ex_second : showx second_neg = Some (1%nat, Some (false, true), [2; 4]%nat).
Proof. vm_compute. reflexivity. Qed.
Lemma ex_info : (do s <- first_pass opx (cfgx (-3) (-2)) [1; 2; 3] (stx TplFitAuto); getContinuumInfoFromFirstpassFitStore (cfgx (-3) (-2)) s 1 false) =
  Ok [("a"%string, 1%Z, 1%Z); ("b"%string, 2%Z, 2%Z)].
Proof. vm_compute. reflexivity. Qed.
Lemma ex_empty : PrecomputeContinuumFit opx (cfgx (-3) (-2)) [] (-1)%Z (stx TplFit) = UB.
Proof. reflexivity. Qed.
Lemma ex_ok : op_ok (cfgx (-1) 1) (o_op (stx TplFit)) /\ distinct [1; 2; 3] /\ strictly_increasing [1; 2; 3].
Proof.
  split; [exact Logic.I|]. split.
  - intros i j x y N A B E. destruct i as [|[|[|i]]]; destruct j as [|[|[|j]]]; cbn in A, B; try (destruct i; discriminate); try (destruct j; discriminate);
      try lia; injection A as <-; injection B as <-; lra.
  - intros i j x y N A B. destruct i as [|[|[|i]]]; destruct j as [|[|[|j]]]; cbn in A, B; try (destruct i; discriminate); try (destruct j; discriminate);
      try lia; injection A as <-; injection B as <-; lra.
Qed.
(** without any template, and none wanted, the largest significance is minus infinity: as a negative continuum *)
Lemma ex_no_tpl : first_pass opx (mkCfg false false true 0 true true (-1) 1 (fun _ => []) calx) [1] (stx TplFit) = UB.
Proof. vm_compute. reflexivity. Qed.
