(** Property C79: the merits and priors given to the redshift PDF, the line counts. *)
From Coq Require Import String.
From Verif Require Import Base RBase RangeModel RangeSpec ZGridModel ZGridSpec ZGridProofs PdfModel LmrModel LmrSpec LmrProofs4 ChiArrModel ChiArrSpec ChiArrProofs ChiArrProofs2 ChiArrProofs3 ChiArrProofs4.
Open Scope Q_scope.

(** The number of lines above the cuts: the number of different elements with a strong emission line, a positive uncertainty
    and both ratios above the thresholds. *)
Theorem C79_lines_above_cut : forall rest r i s snr fit, nth_error (r_sol r) i = Some s -> known rest s ->
  exists ids, getNLinesOverCutThreshold rest r i snr fit = Ok (List.length ids) /\ NoDup ids /\
    forall e, In e ids <-> exists a, In a s /\ l_elt a = e /\ above_cut rest snr fit a.
Proof. exact nlines_spec. Qed.
Print Assumptions C79_lines_above_cut.

(** Per redshift: is there a strong (emission, absorption) line of positive amplitude inside the lambda range; is H-alpha the
    strongest emission line. *)
Theorem C79_strong_lines : forall rest filter sols, (forall s, In s sols -> known rest s) ->
  exists bs, getStrongLinesPresence rest filter sols = Ok bs /\ List.length bs = List.length sols /\
    forall i s b, nth_error sols i = Some s -> nth_error bs i = Some b -> (b = true <-> has_strong rest filter s).
Proof. exact presence_spec. Qed.
Print Assumptions C79_strong_lines.
Theorem C79_halpha_strongest : forall rest sols, (forall s, In s sols -> known rest s) ->
  exists bs, getStrongestLineIsHa rest sols = Ok bs /\ List.length bs = List.length sols /\
    forall i s b, nth_error sols i = Some s -> nth_error bs i = Some b -> (b = true <-> ha_strongest rest s).
Proof. exact ha_spec. Qed.
Print Assumptions C79_halpha_strongest.

(** The extreme merits, NaN ignored. *)
Theorem C79_extreme_merits : forall r, List.length (r_chi2 r) = List.length (r_z r) ->
  exists lo hi, getMinChiSquare r = Ok lo /\ getMaxChiSquare r = Ok hi /\
    (lo <= dbl_max /\ (forall v, In (Some v) (r_chi2 r) -> lo <= v) /\ (lo = dbl_max \/ In (Some lo) (r_chi2 r))) /\
    (- dbl_max <= hi /\ (forall v, In (Some v) (r_chi2 r) -> v <= hi) /\ (hi = - dbl_max \/ In (Some hi) (r_chi2 r))).
Proof. exact extremes_spec. Qed.
Print Assumptions C79_extreme_merits.

(** The redshift prior is the product of the enabled priors, from the flags of the template ratio or of the lines fitted. *)
Theorem C79_redshift_prior : forall rest lowest dblmin r nT nR rows o kr es, table r nT nR rows -> List.length (r_z r) = List.length rows ->
  usable rest r nR kr ->
  ((0 < zo_nha o)%R -> GetEuclidNhaLogZPrior false lowest dblmin [] (map Q2R (r_z r)) (zo_nha o) = Ok es) ->
  exists out, BuildZpriors rest lowest dblmin r o kr = Ok out /\ List.length out = List.length rows /\
    forall iz w p, nth_error rows iz = Some w -> nth_error out iz = Some p -> prior_value rest o kr w (nth iz es 0%R) p.
Proof. exact zpriors_spec. Qed.
Print Assumptions C79_redshift_prior.

(** The array: one model per template ratio (or one) and per continuum template (or one), each with its merit, its redshift
    prior, and the prior of its ratio shared by the continua. *)
Theorem C79_array : forall rest lowest dblmin pc (tplRatio : bool) r nT nR rows o cst es, pc = Cbestproba \/ pc = Cmarg ->
  table r nT nR rows -> List.length (r_z r) = List.length rows -> (tplRatio = true -> List.length (r_prior r) = nR) ->
  (tplRatio = false -> forall s, In s (r_sol r) -> known rest s) ->
  ((0 < zo_nha o)%R -> GetEuclidNhaLogZPrior false lowest dblmin [] (map Q2R (r_z r)) (zo_nha o) = Ok es) ->
  let K := List.length (models tplRatio nR) in let n := ncont nT in
  exists arr, BuildChisquareArray rest lowest dblmin pc tplRatio r o cst = Ok arr /\ a_z arr = r_z r /\ a_cst arr = cst /\
    List.length (a_chi2 arr) = (K * n)%nat /\ List.length (a_zp arr) = (K * n)%nat /\ List.length (a_prior arr) = (if tplRatio then K * n else 0)%nat /\
    forall k kr c, nth_error (models tplRatio nR) k = Some kr -> (c < n)%nat ->
      (exists row zp, nth_error (a_chi2 arr) (position K n k c) = Some row /\ nth_error (a_zp arr) (position K n k c) = Some zp /\
         List.length row = List.length rows /\ List.length zp = List.length rows /\
         forall iz w, nth_error rows iz = Some w -> exists b v p, base_merit kr w b /\ nth_error row iz = Some v /\ nth_error zp iz = Some p /\
           prior_value rest o kr w (nth iz es 0%R) p /\ (nT = 0%nat -> v = b) /\
           forall x x0, nth_error (w_cont w) c = Some x -> nth_error (w_cont w) 0 = Some x0 -> with_continuum b x x0 v) /\
      (tplRatio = true -> exists pk q, nth_error (r_prior r) k = Some pk /\ nth_error (a_prior arr) (position K n k c) = Some q /\ q == pk / inject_Z (Z.of_nat n)).
Proof. exact array_spec. Qed.
Print Assumptions C79_array.
(** The positions are all the models of the array, each once. *)
Theorem C79_positions : forall K n, (1 <= n)%nat ->
  (forall p, (p < K * n)%nat -> exists k c, (k < K)%nat /\ (c < n)%nat /\ p = position K n k c) /\
  (forall k c k' c', (k < K)%nat -> (k' < K)%nat -> (c < n)%nat -> (c' < n)%nat -> position K n k c = position K n k' c' -> k = k' /\ c = c').
Proof. exact (fun K n Hn => conj (fun p => position_onto K n p Hn) (position_inj K n)). Qed.
Print Assumptions C79_positions.
(** The prior probability of the models is preserved. *)
Theorem C79_prior_total : forall rest lowest dblmin pc r nT nR rows o cst es, pc = Cbestproba \/ pc = Cmarg ->
  table r nT nR rows -> List.length (r_z r) = List.length rows -> List.length (r_prior r) = nR ->
  ((0 < zo_nha o)%R -> GetEuclidNhaLogZPrior false lowest dblmin [] (map Q2R (r_z r)) (zo_nha o) = Ok es) ->
  forall arr, BuildChisquareArray rest lowest dblmin pc true r o cst = Ok arr -> total (a_prior arr) == total (r_prior r).
Proof. exact priors_total. Qed.
Print Assumptions C79_prior_total.
(** With bestChi2 the array has one model, the merit of the fit. *)
Theorem C79_best_chi2 : forall rest lowest dblmin r nT nR rows o cst es (tplRatio : bool), table r nT nR rows -> List.length (r_z r) = List.length rows ->
  (forall s, In s (r_sol r) -> known rest s) ->
  ((0 < zo_nha o)%R -> GetEuclidNhaLogZPrior false lowest dblmin [] (map Q2R (r_z r)) (zo_nha o) = Ok es) ->
  exists zp, BuildChisquareArray rest lowest dblmin CbestChi2 tplRatio r o cst = Ok (mkCharr (r_z r) [r_chi2 r] [zp] [] cst) /\ List.length zp = List.length rows /\
    forall iz w p, nth_error rows iz = Some w -> nth_error zp iz = Some p -> prior_value rest o None w (nth iz es 0%R) p.
Proof. exact best_array. Qed.
Print Assumptions C79_best_chi2.
Theorem C79_bad_combination : forall rest lowest dblmin tplRatio r o cst,
  BuildChisquareArray rest lowest dblmin Cother tplRatio r o cst = Throw BAD_PARAMETER_VALUE.
Proof. reflexivity. Qed.
Print Assumptions C79_bad_combination.

(** The continua of a redshift where all merits are equal get the merit of the best continuum. *)
Theorem C79_flat_merits : forall rest lowest dblmin pc (tplRatio : bool) r nT nR rows o cst es m, pc = Cbestproba \/ pc = Cmarg ->
  table r nT nR rows -> List.length (r_z r) = List.length rows -> (tplRatio = true -> List.length (r_prior r) = nR) ->
  (tplRatio = false -> forall s, In s (r_sol r) -> known rest s) ->
  ((0 < zo_nha o)%R -> GetEuclidNhaLogZPrior false lowest dblmin [] (map Q2R (r_z r)) (zo_nha o) = Ok es) -> (0 < nT)%nat ->
  forall arr, BuildChisquareArray rest lowest dblmin pc tplRatio r o cst = Ok arr ->
  forall k c iz row row0 x0, (k < List.length (models tplRatio nR))%nat -> (c < nT)%nat ->
    getChisquareTplContinuumResult r iz = Ok (repeat m nT) -> (iz < List.length rows)%nat ->
    nth_error (a_chi2 arr) (position (List.length (models tplRatio nR)) nT k c) = Some row -> nth_error (a_chi2 arr) k = Some row0 ->
    nth_error row0 iz = Some x0 -> exists x, nth_error row iz = Some x /\
      match x, x0 with Some u, Some v => u == v | None, None => True | _, _ => False end.
Proof. exact flat_merits. Qed.
Print Assumptions C79_flat_merits.
(** Hence, when the second pass uses the continuum of the first pass (C78), the marginalisation over the continua has no
    effect inside the windows: every continuum counts as the best one. *)
Theorem C79_second_pass_flat : forall rest lowest dblmin fitf nT nR z priors cands pc o cst es, (forall n x, shaped nT nR (fitf n x)) -> pc = Cbestproba \/ pc = Cmarg ->
  (0 < nT)%nat -> (0 < nR)%nat ->
  strictly_increasing z -> List.length priors = nR -> cands <> [] -> spaced z ->
  insertable_all (map snd cands) z -> apart (map snd cands) ->
  (forall Zc s, In (Zc, s) cands -> In Zc z /\ In Zc s) ->
  (forall c y, (List.length z <= c)%nat -> o_cont (fitf c y) = None) ->
  (forall r, two_passes fitf z nT nR priors cands = Ok r -> (0 < zo_nha o)%R -> GetEuclidNhaLogZPrior false lowest dblmin [] (map Q2R (r_z r)) (zo_nha o) = Ok es) ->
  exists r arr, two_passes fitf z nT nR priors cands = Ok r /\ BuildChisquareArray rest lowest dblmin pc true r o cst = Ok arr /\
    forall k c iz y s, (k < nR)%nat -> (c < nT)%nat -> nth_error (r_z r) iz = Some y -> In s (map snd cands) -> replaced s y ->
      exists row row0 x x0, nth_error (a_chi2 arr) (position nR nT k c) = Some row /\ nth_error (a_chi2 arr) k = Some row0 /\
        nth_error row iz = Some x /\ nth_error row0 iz = Some x0 /\
        match x, x0 with Some u, Some v => u == v | None, None => True | _, _ => False end.
Proof. exact second_pass_flat. Qed.
Print Assumptions C79_second_pass_flat.

(** *** non-vacuity *)
Definition ex_rest (id : nat) : option rline :=
  match id with 0%nat => Some (mkRline "Halpha" true true) | 1%nat => Some (mkRline "Hbeta" true true) | 2%nat => Some (mkRline "CaII" true false) | _ => None end.
Definition ex_sol : list lsol :=
  [mkLsol 1 0 (Some 3) (Some 1) (Some 1) false; mkLsol 0 1 (Some 5) (Some 1) (Some 0) false; mkLsol 2 2 (Some 9) (Some 1) (Some 1) false; mkLsol 0 1 (Some 4) (Some 1) (Some 1) true].
Example C79_ex_known : known ex_rest ex_sol.
Proof. intros a H. simpl in H. intuition (subst; discriminate). Qed.
Definition ex_res : lmres := mkLmres [0] [Some 7] [None] [ex_sol] [None] [None] [None] [[Some 1]; [Some 3]] [[Some 10]; [Some 20]] [[None]; [None]]
  [[true]; [false]] [[false]; [false]] [[0%Z]; [0%Z]] [(1#4); (3#4)] [[Some 1]; [Some 2]].
Definition ex_row : row := mkRow (Some 7) None ex_sol None None None [Some 1; Some 3] [Some 10; Some 20] [None; None] [true; false] [false; false] [0%Z; 0%Z] [Some 1; Some 2].
Example C79_ex_table : table ex_res 2 2 [ex_row].
Proof.
  unfold table, matrix. cbn. repeat (split; [reflexivity|]).
  repeat split; try (intros w [<-|[]]; reflexivity); try (intros [|[|j]] col K; simpl in K; try (destruct j; discriminate); injection K as <-; reflexivity).
Qed.
Example C79_ex_lines : getNLinesOverCutThreshold ex_rest ex_res 0 2 2 = Ok 2%nat.
Proof. vm_compute. reflexivity. Qed.
Example C79_ex_ha : getStrongestLineIsHa ex_rest [ex_sol] = Ok [true] /\ getStrongLinesPresence ex_rest 2 [ex_sol] = Ok [true].
Proof. vm_compute. split; reflexivity. Qed.
Example C79_ex_rows : mapr_rows ex_res = Ok [[Some 11]; [Some 22]; [Some 13]; [Some 24]].
Proof. vm_compute. reflexivity. Qed.
