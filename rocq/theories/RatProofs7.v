From Verif Require Import Base RangeModel AxisModel MeikModel EfitModel F64 RatModel RatSpec RatProofs RatProofs2 RatProofs3 RatProofs4 RatProofs5 RatProofs6.
Open Scope Q_scope.

(** concrete runs: one spectrum of three samples, the model flux is mf at the first sample: the chi-square is its square *)
Definition ex_obs : obs := mkObs [1; 2; 3] [1; 1; 1] (mkRange 1 3).
Definition ex_row : row := mkRow NaN NaN None false false 0 [].
(** the fitter: the amplitude of every element is the number of the continuum, NaN for the continuum 9 *)
Definition ex_fit_elt (c : Z) (e : elt) : res elt :=
  do e1 <- setAmplitudes e (if Z.eqb c 9 then None else Some (inject_Z c)) (Some 1); Ok (with_sums e1 (Some 1) (Some 1)).
Definition ex_env (k : kind) (st : list Z) (cat : list ratio) (ps : list prior) (noism svd : bool) (n : nat) (mf : Z -> Q -> Q) (fs : Z -> option Q) : env Z :=
  mkEnv Z st true TplFit k cat ps noism false svd true n [ex_obs] (fun _ => [[0; 0; 0]])
    (fun c es => [[mf c (match es with e :: _ => match e_nom e with q :: _ => q | [] => 0 end | [] => 0 end); 0; 0]]) fs
    (fun _ _ e => (e_asym e, e_igm e)) (fun c es => mapr (ex_fit_elt c) es) (fun es => Ok es) (fun _ => Some 0) (fun _ => true) (fun _ => false).
Definition rt (ism : Z) (q : Q) : ratio := mkRatio ism [[q]].
(** one element of one emission line *)
Definition line_elt (nom : Q) (a s : option Q) (x : option Q) : elt := mkElt [false] [false] false false 1 [nom] [a] [s] x x asym_nan (-1).
Definition ex_elt : elt := line_elt 1 None None None.

Lemma ex_keeps k st cat ps a b n mf fs : fitter_keeps (ex_env k st cat ps a b n mf fs).
Proof.
  intros c es es' E. cbn [fitter ex_env] in E. apply mapr_F2' in E. induction E as [|e e' t u H _ IH]; constructor; auto.
  unfold ex_fit_elt in H. apply rbind_ok in H. destruct H as (e1 & E1 & H). inversion H; subst e'. unfold setAmplitudes in E1.
  destruct (if Z.eqb c 9 then None else Some (inject_Z c)) as [q|]; [|inversion E1; repeat split].
  destruct (e_allout e); [inversion E1; repeat split|]. apply rbind_ok in E1. destruct E1 as (l & _ & E1). inversion E1. repeat split.
Qed.

(** two continua and three ratios, the last one copied from the second: the best pair is (1, 1) *)
Definition ex_v : env Z := ex_env TplRatio [1%Z; 2%Z] [rt 0 1; rt 0 2; rt 1 3] [] true false 2
  (fun c q => if Qeq_bool q 2 then if Z.eqb c 2 then 1 else 4 else 3) (fun _ => Some 1).
Lemma ex_run_ok : exists s, fit ex_v [ex_elt] [ex_row; ex_row; ex_row] 7%Z true = Ok s /\
  f_saved s = 1%Z /\ f_k s = 1%Z /\ f_c s = 2%Z /\ map e_amp (f_es s) = [[Some (8 # 2)]] /\ map e_nom (f_es s) = [[2]] /\
  map w_merit (f_tab s) = [Fin 10; Fin 2; Fin 2].
Proof. eexists. split; [vm_compute; reflexivity|]. vm_compute. repeat split. Qed.

(** the chi-square with the prior *)
Definition total (w : row) : f64 := fadd (w_merit w) (w_prior w).
Lemma ignored_prior_wit : exists (v : env Z) es tab c s w0 w1, knd v = TplRatio /\ fitter_keeps v /\ fit v es tab c true = Ok s /\ f_saved s = 0%Z /\
  nth_error (f_tab s) 0 = Some w0 /\ nth_error (f_tab s) 1 = Some w1 /\ flt (fadd (w_merit w1) (w_prior w1)) (fadd (w_merit w0) (w_prior w0)) = true.
Proof.
  pose (v := ex_env TplRatio [1%Z] [rt 0 1; rt 0 2] [mkPrior 1 (-(3)) 0 0 0 0 0 0; mkPrior 1 0 0 0 0 0 0 0] false false 1
    (fun c q => if Qeq_bool q 1 then 1 else 2) (fun _ => Some 0)).
  exists v, [ex_elt], [ex_row; ex_row], 7%Z. eexists _, _, _. split; [reflexivity|]. split; [apply ex_keeps|].
  split; [vm_compute; reflexivity|]. split; [reflexivity|]. split; [reflexivity|]. split; [reflexivity|]. vm_compute. reflexivity.
Qed.

(** h is the list of the fits of a run, x the best one *)
Definition fits (v : env Z) (es : list elt) (c : Z) (h : list (attempt Z)) (x : attempt Z) : Prop :=
  history v c es h /\ map (fun a => (t_k a, t_r a)) h = pairs (nContinuum v) (nratio v) (tried v) /\ first_least t_m h x.

Ltac onefit := split; [reflexivity|]; split; [vm_compute; reflexivity|];
   first [eexists; split; [vm_compute; reflexivity|]; split; vm_compute; reflexivity
         |eexists; split; vm_compute; reflexivity].
Ltac hist := split; [repeat (first [exact Logic.I | split; [onefit|]]) | split; [vm_compute; reflexivity|]].
Ltac first2 := exists [], []; split; [reflexivity|].

Lemma least1 (a b : attempt Z) : flt (t_m a) PInf = true -> flt (t_m b) (t_m a) = false -> first_least t_m [a; b] a.
Proof.
  intros H1 H2. exists [], [b]. split; auto. split; auto. split; [intros y []|]. intros y [E|[]]. subst y. exact H2.
Qed.
Lemma least_one (a : attempt Z) : flt (t_m a) PInf = true -> first_least t_m [a] a.
Proof. intros H1. exists [], []. split; auto. split; auto. split; intros y []. Qed.

Definition num_eqb (a b : option Q) : bool := match a, b with Some x, Some y => Qeq_bool x y | None, None => true | _, _ => false end.
Fixpoint all2 {A} (f : A -> A -> bool) (l l' : list A) : bool :=
  match l, l' with [], [] => true | x :: t, y :: u => f x y && all2 f t u | _, _ => false end.
Lemma same_b es es' : same_amplitudes es es' -> all2 (fun e e' => all2 num_eqb (e_amp e) (e_amp e')) es es' = true.
Proof.
  induction 1 as [|e e' t u H _ IH]; auto. cbn [all2]. rewrite IH, andb_true_r. clear IH.
  induction H as [|a b l l' H _ IH]; auto. cbn [all2]. rewrite IH, andb_true_r. clear IH.
  destruct a, b; cbn in *; auto; try contradiction. apply Qeq_bool_iff. exact H.
Qed.
Ltac diff := let H := fresh in intro H; apply same_b in H; vm_compute in H; discriminate H.

(** with line priors: the amplitudes of the other continuum *)
Lemma mixed_prior_wit : exists (v : env Z) es tab c s h x, knd v = TplRatio /\ svdlc v = false /\ fitter_keeps v /\ fits v es c h x /\ fit v es tab c true = Ok s /\
  f_best s = t_m x /\ f_c s = t_c x /\ ~ same_amplitudes (t_es x) (f_es s).
Proof.
  pose (v := ex_env TplRatio [1%Z; 2%Z] [rt 0 1] [mkPrior 0 0 100 0 0 0 2 1] false false 2 (fun c q => if Z.eqb c 1 then 1 else 2) (fun _ => Some 0)).
  pose (a0 := mkA 0 0 1%Z [line_elt 1 (Some 1) (Some 1) (Some 1)] (Fin 1) (Fin 100)).
  pose (a1 := mkA 1 0 2%Z [line_elt 1 (Some 2) (Some 1) (Some 1)] (Fin 4) (Fin 0)).
  exists v, [ex_elt], [ex_row], 7%Z. eexists. exists [a0; a1], a0. split; [reflexivity|]. split; [reflexivity|]. split; [apply ex_keeps|]. split.
  { hist. apply least1; reflexivity. }
  split; [vm_compute; reflexivity|]. split; [reflexivity|]. split; [reflexivity|]. diff.
Qed.
(** with the rules: the amplitudes of the last continuum, not of the best one *)
Lemma mixed_rules_wit : exists (v : env Z) es tab c s h x, knd v = Rules /\ svdlc v = false /\ fitter_keeps v /\ fits v es c h x /\ fit v es tab c true = Ok s /\
  f_best s = t_m x /\ f_c s = t_c x /\ f_sol s = Some (t_es x, t_c x) /\ ~ same_amplitudes (t_es x) (f_es s).
Proof.
  pose (v := ex_env Rules [1%Z; 2%Z] [] [] false false 2 (fun c q => if Z.eqb c 1 then 1 else 2) (fun _ => Some 0)).
  pose (a0 := mkA 0 0 1%Z [line_elt 1 (Some 1) (Some 1) (Some 1)] (Fin 1) (Fin 0)).
  pose (a1 := mkA 1 0 2%Z [line_elt 1 (Some 2) (Some 1) (Some 1)] (Fin 4) (Fin 0)).
  exists v, [ex_elt], [ex_row], 7%Z. eexists. exists [a0; a1], a0. split; [reflexivity|]. split; [reflexivity|]. split; [apply ex_keeps|]. split.
  { hist. apply least1; reflexivity. }
  split; [vm_compute; reflexivity|]. split; [reflexivity|]. split; [reflexivity|]. split; [reflexivity|]. diff.
Qed.
(** with svdlc: the continuum of the last candidate with the amplitudes of the best one *)
Lemma mixed_svdlc_wit : exists (v : env Z) es tab c s h x, knd v = TplRatio /\ priors v = [] /\ fitter_keeps v /\ fits v es c h x /\ fit v es tab c true = Ok s /\
  f_best s = t_m x /\ same_amplitudes (t_es x) (f_es s) /\ f_c s <> t_c x.
Proof.
  pose (v := ex_env TplRatio [1%Z; 2%Z] [rt 0 1] [] false true 2 (fun c q => if Z.eqb c 1 then 1 else 2) (fun _ => Some 0)).
  pose (a0 := mkA 0 0 1%Z [line_elt 1 (Some 1) (Some 1) (Some 1)] (Fin 1) (Fin 0)).
  pose (a1 := mkA 1 0 2%Z [line_elt 1 (Some 2) (Some 1) (Some 1)] (Fin 4) (Fin 0)).
  exists v, [ex_elt], [ex_row], 7%Z. eexists. exists [a0; a1], a0. split; [reflexivity|]. split; [reflexivity|]. split; [apply ex_keeps|]. split.
  { hist. apply least1; reflexivity. }
  split; [vm_compute; reflexivity|]. split; [reflexivity|]. split; [|vm_compute; discriminate].
  constructor; [|constructor]. constructor; [|constructor]. vm_compute. reflexivity.
Qed.
(** absorption lines over the limit: the amplitudes are not found back *)
Definition abs_elt (a b : option Q) (s t : option Q) (x : option Q) (n m : Q) : elt :=
  mkElt [true; true] [false; false] false false 1 [n; m] [a; b] [s; t] x x asym_nan (-1).
Lemma limit_wit : exists (v : env Z) es tab c s h x, knd v = TplRatio /\ priors v = [] /\ nContinuum v = 1%nat /\ fitter_keeps v /\ fits v es c h x /\
  fit v es tab c true = Ok s /\ f_best s = t_m x /\ ~ same_amplitudes (t_es x) (f_es s).
Proof.
  pose (v := ex_env TplRatio [1%Z] [mkRatio 0 [[2; 1]]] [] false false 1 (fun _ _ => 1) (fun _ => Some 0)).
  pose (a0 := mkA 0 0 1%Z [abs_elt (Some 1) (Some 1) (Some 2) (Some 1) (Some 1) 2 1] (Fin 1) (Fin 0)).
  exists v, [abs_elt None None None None None 1 1], [ex_row], 7%Z. eexists. exists [a0], a0. split; [reflexivity|]. split; [reflexivity|]. split; [reflexivity|].
  split; [apply ex_keeps|]. split.
  { hist. apply least_one; reflexivity. }
  split; [vm_compute; reflexivity|]. split; [reflexivity|]. diff.
Qed.
(** with line priors and an amplitude which is not a number: the amplitudes of the fit made before, at another redshift *)
Lemma stale_wit : exists (v : env Z) es tab c s h x w e a, knd v = TplRatio /\ nContinuum v = 1%nat /\ fitter_keeps v /\ fits v es c h x /\
  fit v es tab c true = Ok s /\ f_best s = t_m x /\ map e_amp (t_es x) = [[None]] /\
  tab = [w] /\ map v_amp (w_elts w) = [Some a] /\ f_es s = [e] /\ e_nom e = [1] /\ exists q, e_amp e = [Some q] /\ q == a /\ ~ a == 0.
Proof.
  pose (v := ex_env TplRatio [9%Z] [rt 0 1] [mkPrior 0 0 1 0 0 0 2 1] false false 1 (fun c q => 1) (fun _ => Some 0)).
  pose (a0 := mkA 0 0 9%Z [line_elt 1 None None (Some 1)] (Fin 1) NaN).
  pose (w := mkRow (Fin 3) (Fin 0) None false false 0 [mkSaved (Some 5) (Some 1) (Some 1) (Some 1) asym_nan (-1) (Fin 0)]).
  exists v, [ex_elt], [w], 7%Z. eexists. exists [a0], a0, w. eexists _, 5. split; [reflexivity|]. split; [reflexivity|]. split; [apply ex_keeps|]. split.
  { hist. apply least_one; reflexivity. }
  split; [vm_compute; reflexivity|]. split; [reflexivity|]. split; [reflexivity|]. split; [reflexivity|]. split; [reflexivity|].
  split; [reflexivity|]. split; [reflexivity|]. eexists. split; [reflexivity|]. split; [reflexivity|discriminate].
Qed.
(** the last sample of the range does not count *)
Lemma last_sample_wit : exists o y y' m i, nth_error (o_axis o) i <> None /\ rbeg (o_range o) <= nth i (o_axis o) 0 <= rend (o_range o) /\
  nth i y 0 <> nth i y' 0 /\ (forall j, j <> i -> nth j y 0 = nth j y' 0) /\ length y' = length y /\
  getLeastSquareMerit [o] [y] [m] (Some 0) = getLeastSquareMerit [o] [y'] [m] (Some 0).
Proof.
  exists ex_obs, [0; 0; 0], [0; 0; 5], [0; 0; 0], 2%nat. split; [discriminate|]. split; [split; discriminate|].
  split; [discriminate|]. split; [|split; reflexivity].
  intros [|[|[|j]]] N; try reflexivity. exfalso; lia.
Qed.
