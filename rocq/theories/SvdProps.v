(** C69: the joint fit of the amplitudes of several elements.
    The solver of linear least squares (gsl_multifit_wlinear) is any function which minimises the weighted sum of squares ([exact]); [gs_solve] is one, so the hypothesis is met.
    [single] is the fit of one element alone (C67). *)
From Coq Require Import Qabs Lqa.
From Verif Require Import Base MeikModel SvdModel SvdSpec SvdProofs SvdProofs2 SvdProofs3.
Open Scope Q_scope.

(** there is an exact solver, defined for every problem, also singular *)
Theorem C69_solver_exists : exact gs_solve.
Proof. exact gs_exact. Qed.
Print Assumptions C69_solver_exists.
(** nothing to fit, or no sample: an exception *)
Theorem C69_throws : forall axis flux err col supp solve sqrtf dblmin offs o es idx s, es = [] \/ supp es = [] ->
  fitAmplitudesLinSolve axis flux err col supp solve sqrtf dblmin offs o es idx s = Throw INTERNAL_ERROR.
Proof. intros axis flux err col supp solve sqrtf dblmin offs o es idx s [-> |Z]; unfold fitAmplitudesLinSolve; [reflexivity|]. destruct es; [reflexivity|]. rewrite Z. reflexivity. Qed.
Print Assumptions C69_throws.
(** with at least as many samples as unknowns, the amplitudes and the polynomial set are the minimum of the chi square over the support, whatever the scale of the flux;
    nothing else changes, and the answer says whether all the amplitudes are non negative *)
Theorem C69_joint : forall axis flux err col supp solve sqrtf dblmin (offs : bool) o es s, exact solve -> 0 < dblmin -> es <> [] -> supp es <> [] -> NoDup es -> (forall i, In i (supp es) -> ~ err i == 0) ->
  (length es + (if offs then 3 else 0) <= length (supp es))%nat ->
  exists r a p, fitAmplitudesLinSolve axis flux err col supp solve sqrtf dblmin offs o es [] s = Ok r /\ best_joint axis flux err (col o) offs es (supp es) a p /\
    r_amps r = a /\ has_amps (r_s r) es a /\ (offs = true -> forall e, In e es -> s_poly (r_s r) e = p) /\ only es s (r_s r) /\ (r_pos r = true <-> forall v, In v a -> 0 <= v).
Proof. exact Joint. Qed.
Print Assumptions C69_joint.
(** with fewer samples than unknowns every amplitude is zero, without an uncertainty *)
Theorem C69_few_samples : forall axis flux err col supp solve sqrtf single dblmin (offs : bool) o es s, exact solve -> 0 < dblmin -> es <> [] -> supp es <> [] -> NoDup es -> (forall i, In i (supp es) -> ~ err i == 0) ->
  (length (supp es) < length es + (if offs then 3 else 0))%nat ->
  exists s', fitAmplitudesLinSolvePositive axis flux err col supp solve sqrtf single dblmin offs o es s = Ok s' /\ only es s s' /\ s_off s' = s_off s /\ forall e, In e es -> s_amp s' e = Some 0 /\ s_std s' e = None.
Proof. intros axis flux err col supp solve sqrtf single dblmin offs o es s EX MIN. exact (Positive_poor axis flux err col supp solve sqrtf single dblmin offs EX MIN o es s). Qed.
Print Assumptions C69_few_samples.
(** the positive fit: the amplitudes of the joint minimum if they are all non negative; else the elements with a negative one are set to zero and the others are fitted again, alone if
    there is only one and no polynomial, else jointly; if the second minimum has negative amplitudes too, these are set to zero and each of the others is fitted alone.
    No amplitude is negative (if the fit of one element gives none); nothing else changes *)
Theorem C69_positive : forall axis flux err col supp solve sqrtf single dblmin (offs : bool) o es s, exact solve -> 0 < dblmin -> es <> [] -> supp es <> [] -> NoDup es -> (forall i, In i (supp es) -> ~ err i == 0) ->
  (length es + (if offs then 3 else 0) <= length (supp es))%nat ->
  exists s', fitAmplitudesLinSolvePositive axis flux err col supp solve sqrtf single dblmin offs o es s = Ok s' /\ only es s s' /\ s_off s' = s_off s /\
    (exists a p, best_joint axis flux err (col o) offs es (supp es) a p /\
      ((forall v, In v a -> 0 <= v) -> has_amps s' es a /\ (offs = true -> forall e, In e es -> s_poly s' e = p)) /\
      ((exists v, In v a /\ v < 0) ->
         (forall j e v, nth_error es j = Some e -> nth_error a j = Some v -> v < 0 -> s_amp s' e = Some 0) /\
         (forall e, kept es a = [e] -> offs = false -> s_amp s' e = fst (single o e)) /\
         (kept es a <> [] -> (length (kept es a) <> 1%nat \/ offs = true) ->
            exists a2 p2, best_joint axis flux err (col o) offs (kept es a) (supp es) a2 p2 /\ (offs = true -> forall e, In e es -> s_poly s' e = p2) /\
              ((forall v, In v a2 -> 0 <= v) -> has_amps s' (kept es a) a2) /\
              ((exists v, In v a2 /\ v < 0) -> forall j e v, nth_error (kept es a) j = Some e -> nth_error a2 j = Some v -> (0 < v -> s_amp s' e = fst (single o e)) /\ (v <= 0 -> s_amp s' e = Some 0))))) /\
    ((forall e, not_negative (fst (single o e))) -> forall e, In e es -> not_negative (s_amp s' e)).
Proof. intros axis flux err col supp solve sqrtf single dblmin offs o es s EX MIN. exact (Positive_ranked axis flux err col supp solve sqrtf single dblmin offs EX MIN o es s). Qed.
Print Assumptions C69_positive.
(** the amplitudes set do not depend on those before *)
Theorem C69_no_memory : forall axis flux err col supp solve sqrtf single dblmin offs o es s s2 s', fitAmplitudesLinSolvePositive axis flux err col supp solve sqrtf single dblmin offs o es s = Ok s' ->
  exists s2', fitAmplitudesLinSolvePositive axis flux err col supp solve sqrtf single dblmin offs o es s2 = Ok s2' /\ forall e, In e es -> s_amp s2' e = s_amp s' e.
Proof. exact Forgets. Qed.
Print Assumptions C69_no_memory.
(** the fit of the offsets: the offset set is the first of those with the smallest merit, and the amplitudes those of the positive fit at this offset; the last offset if no merit is a number *)
Theorem C69_offsets : forall axis flux err cont col supp solve sqrtf single dblmin offs n es s0, exact solve -> 0 < dblmin ->
  (es <> [] /\ supp es <> [] /\ NoDup es /\ forall i, In i (supp es) -> ~ err i == 0) -> (0 < n)%nat ->
  exists s' b sF, fitAmplitudesLinSolveAndLambdaOffset axis flux err cont col supp solve sqrtf single dblmin offs n es true s0 = Ok s' /\ s_off s' = Some b /\ (b < n)%nat /\
    fitAmplitudesLinSolvePositive axis flux err col supp solve sqrtf single dblmin offs (Some b) es s0 = Ok sF /\ (forall e, In e es -> s_amp s' e = s_amp sF e) /\
    ((exists v, merit flux err cont col supp sqrtf (Some b) es sF = Some v /\
        forall i w sI, (i < n)%nat -> fitAmplitudesLinSolvePositive axis flux err col supp solve sqrtf single dblmin offs (Some i) es s0 = Ok sI ->
          merit flux err cont col supp sqrtf (Some i) es sI = Some w -> v <= w /\ ((i < b)%nat -> v < w)) \/
     (b = (n - 1)%nat /\ forall i sI, (i < n)%nat -> fitAmplitudesLinSolvePositive axis flux err col supp solve sqrtf single dblmin offs (Some i) es s0 = Ok sI -> merit flux err cont col supp sqrtf (Some i) es sI = None)).
Proof. intros axis flux err cont col supp solve sqrtf single dblmin offs n es s0 EX MIN. exact (Offsets_end axis flux err cont col supp solve sqrtf single dblmin offs EX MIN n es s0). Qed.
Print Assumptions C69_offsets.
(** without an offset to fit it is the positive fit *)
Theorem C69_no_offset : forall axis flux err cont col supp solve sqrtf single dblmin offs n es s, 
  fitAmplitudesLinSolveAndLambdaOffset axis flux err cont col supp solve sqrtf single dblmin offs n es false s = fitAmplitudesLinSolvePositive axis flux err col supp solve sqrtf single dblmin offs (s_off s) es s.
Proof. reflexivity. Qed.
Print Assumptions C69_no_offset.
(** the merit: the root of the chi square of the lines over the sum of the weights, for the flux without continuum minus the continuum; it is not a number for a perfect fit *)
Theorem C69_merit : forall axis flux err cont col supp sqrtf o es a s, has_amps s es a -> (forall v, In v a -> 0 <= v) -> (forall i, In i (supp es) -> ~ err i == 0) -> (forall x y, x == y -> sqrtf x == sqrtf y) ->
  let c := chi2 axis (fun i => flux i - cont i) err (col o) es a no_poly (supp es) in
  (c == 0 -> merit flux err cont col supp sqrtf o es s = None) /\ (0 < c -> exists v, merit flux err cont col supp sqrtf o es s = Some v /\ v == sqrtf (c / weights err (supp es))).
Proof. exact Merit. Qed.
Print Assumptions C69_merit.
(** the joint fit of an absorption and an emission line: if the residual has grown the amplitudes are again those before (for the other elements: when the nominal amplitude of their first line
    is that of the line tagged), else those of the joint fit; the other elements keep theirs *)
Theorem C69_balmer : forall axis flux err col supp solve sqrtf dblmin offs nom o eA lA eE lE more ids err_init err_after s, exact solve -> 0 < dblmin ->
  (eA :: eE :: more <> [] /\ supp (eA :: eE :: more) <> [] /\ NoDup (eA :: eE :: more) /\ forall i, In i (supp (eA :: eE :: more)) -> ~ err i == 0) -> (length more <= length ids)%nat ->
  exists s1 s', fitAmplitudesLinSolve axis flux err col supp solve sqrtf dblmin offs o (eA :: eE :: more) [] s = Ok s1 /\
    balmer axis flux err col supp solve sqrtf dblmin offs nom o eA lA eE lE more ids err_init err_after s = Ok s' /\
    ((exists a b, err_init = Some a /\ err_after (r_s s1) = Some b /\ a < b /\
        (~ nom eA lA == 0 -> same_amp (s_amp s' eA) (s_amp s eA)) /\ (~ nom eE lE == 0 -> same_amp (s_amp s' eE) (s_amp s eE)) /\
        (forall j e k, nth_error more j = Some e -> nth_error ids j = Some k -> ~ nom e k == 0 -> nom e 0%nat == nom e k -> same_amp (s_amp s' e) (s_amp s e)) /\
        (forall e, ~ In e (eA :: eE :: more) -> s_amp s' e = s_amp s e)) \/
     (s' = r_s s1 /\ forall a b, err_init = Some a -> err_after (r_s s1) = Some b -> b <= a)).
Proof. intros axis flux err col supp solve sqrtf dblmin offs nom o eA lA eE lE more ids err_init err_after s EX MIN. exact (Balmer axis flux err col supp solve sqrtf dblmin offs EX MIN nom o eA lA eE lE more ids err_init err_after s). Qed.
Print Assumptions C69_balmer.

(** * Examples: tables of profiles and fluxes, errors one, no continuum *)
Definition tab (l : list (list Q)) (e i : nat) : Q := nth i (nth e l []) 0.
Definition row (l : list Q) (i : nat) : Q := nth i l 0.
Definition ones (_ : nat) : Q := 1.
Definition zeros (_ : nat) : Q := 0.
Definition unset : sst := mkSst (fun _ => None) (fun _ => None) (fun _ => no_poly) None.
(** the fit of one element alone: the best amplitude, zero if it is negative *)
Fixpoint sump (xs : list nat) (f g : nat -> Q) : Q := match xs with [] => 0 | i :: t => f i * g i + sump t f g end.
Definition alone (cols : list (list Q)) (y : list Q) (xs : list nat) (_ : option nat) (e : nat) : option Q * option Q :=
  let v := sump xs (row y) (tab cols e) / sump xs (tab cols e) (tab cols e) in (Some (if Qltb v 0 then 0 else v), Some 0).
Definition run_pos (cols : list (list Q)) (y : list Q) (xs : list nat) (es : list nat) : res sst :=
  fitAmplitudesLinSolvePositive zeros (row y) ones (fun _ => tab cols) (fun _ => xs) gs_solve (fun v => v) (alone cols y xs) (1 # 1000) false None es unset.
Definition amps (r : res sst) (es : list nat) : list Q := match r with Ok s => map (fun e => match s_amp s e with Some v => Qred v | None => 0 end) es | _ => [] end.
Definition chi (cols : list (list Q)) (y : list Q) (xs : list nat) (es : list nat) (a : list Q) : Q := chi2 zeros (row y) ones (tab cols) es a no_poly xs.

(** two overlapping lines, well fitted: the flux is one time the first and twice the second *)
Example C69_joint_case : amps (run_pos [[1; 2; 1; 0]; [0; 1; 2; 1]] [1; 4; 5; 2] [0; 1; 2; 3]%nat [0; 1]%nat) [0; 1]%nat = [1; 2].
Proof. vm_compute. reflexivity. Qed.
(** the hypotheses of C69_joint, C69_positive and C69_offsets for this case *)
Example C69_hypotheses_case : exact gs_solve /\ 0 < 1 # 1000 /\ NoDup [0; 1]%nat /\ (forall i, In i [0; 1; 2; 3]%nat -> ~ ones i == 0) /\ (length [0; 1]%nat + 0 <= length [0; 1; 2; 3]%nat)%nat.
Proof. split; [exact gs_exact|]. split; [reflexivity|]. split; [repeat constructor; cbn; intuition discriminate|]. split; [discriminate|cbn; lia]. Qed.
(** a negative line: it is set to zero and the other is fitted alone *)
Example C69_positive_case : amps (run_pos [[1; 2; 1; 0]; [0; 1; 2; 1]] [2; 4; 0; -2] [0; 1; 2; 3]%nat [0; 1]%nat) [0; 1]%nat = [5 # 3; 0].
Proof. vm_compute. reflexivity. Qed.
(** the positive fit is not the best among the non negative amplitudes: a line set to zero by the first solution may be needed *)
Definition three : list (list Q) := [[0; 2; 2]; [0; 1; 0]; [1; 0; 1]].
Theorem C69_not_best_refuted : amps (run_pos three [-1; -1; 2] [0; 1; 2]%nat [0; 1; 2]%nat) [0; 1; 2]%nat = [1 # 4; 0; 0] /\
  chi three [-1; -1; 2] [0; 1; 2]%nat [0; 1; 2]%nat [1 # 6; 0; 1 # 3] < chi three [-1; -1; 2] [0; 1; 2]%nat [0; 1; 2]%nat [1 # 4; 0; 0].
Proof. split; vm_compute; reflexivity. Qed.
Print Assumptions C69_not_best_refuted.
(** after a second negative solution the lines are fitted alone: the flux of overlapping lines is counted once for each, and the chi square is 99 times that of other non negative amplitudes *)
Definition four : list (list Q) := [[2; 2; 1; 1]; [2; 1; 0; 1]; [1; 0; 0; 2]; [1; 1; 1; 1]].
Theorem C69_counted_twice_refuted : amps (run_pos four [6; 7; 4; 3] [0; 1; 2; 3]%nat [0; 1; 2; 3]%nat) [0; 1; 2; 3]%nat = [33 # 10; 0; 0; 5] /\
  chi four [6; 7; 4; 3] [0; 1; 2; 3]%nat [0; 1; 2; 3]%nat [33 # 10; 0; 0; 5] == 991 # 10 /\ chi four [6; 7; 4; 3] [0; 1; 2; 3]%nat [0; 1; 2; 3]%nat [3; 0; 0; 1 # 2] == 1.
Proof. (split; [|split]); vm_compute; reflexivity. Qed.
Print Assumptions C69_counted_twice_refuted.
(** with fewer samples than lines nothing is fitted, although one line alone has the flux exactly *)
Theorem C69_few_samples_refuted : amps (run_pos [[1; 2]; [2; 1]; [1; 1]] [3; 6] [0; 1]%nat [0; 1; 2]%nat) [0; 1; 2]%nat = [0; 0; 0] /\ chi [[1; 2]; [2; 1]; [1; 1]] [3; 6] [0; 1]%nat [0; 1; 2]%nat [3; 0; 0] == 0.
Proof. split; vm_compute; reflexivity. Qed.
Print Assumptions C69_few_samples_refuted.

(** ** offsets: the profile of the only line moves by one sample at each step *)
Definition moved (o : option nat) (e i : nat) : Q := match o with Some k => row [1; 2; 1; 0; 0] (i + 2 - k) | None => 0 end.
Definition run_off (y c : list Q) (n : nat) : res sst :=
  fitAmplitudesLinSolveAndLambdaOffset zeros (row y) ones (row c) moved (fun _ => [0; 1; 2]%nat) gs_solve (fun v => v)
    (fun o e => let v := sump [0; 1; 2]%nat (row y) (moved o e) / sump [0; 1; 2]%nat (moved o e) (moved o e) in (Some (if Qltb v 0 then 0 else v), Some 0)) (1 # 1000) false n [0%nat] true unset.
Definition chosen (r : res sst) : option nat := match r with Ok s => s_off s | _ => None end.
(** the line is found where it is, up to noise *)
Example C69_offset_case : chosen (run_off [2; 5; 2] [0; 0; 0] 3) = Some 2%nat /\ amps (run_off [2; 5; 2] [0; 0; 0] 3) [0%nat] = [7 # 3].
Proof. split; vm_compute; reflexivity. Qed.
(** a perfect fit is never chosen: its residual is zero, which is taken for a missing value *)
Theorem C69_perfect_refuted : chosen (run_off [2; 4; 2] [0; 0; 0] 3) = Some 1%nat /\
  chi2 zeros (row [2; 4; 2]) ones (moved (Some 2%nat)) [0%nat] [2] no_poly [0; 1; 2]%nat == 0 /\
  forall a, chi2 zeros (row [2; 4; 2]) ones (moved (Some 1%nat)) [0%nat] [a] no_poly [0; 1; 2]%nat > 0.
Proof.
  split; [vm_compute; reflexivity|]. split; [vm_compute; reflexivity|]. intros a. cbn [chi2]. unfold lines_at, moved, poly_at, no_poly, row, ones, zeros. cbn [nth Nat.add Nat.sub fst snd].
  setoid_replace ((2 - (a * 2 + 0) - (0 + 0 * 0 + 0 * (0 * 0))) / 1) with (2 - 2 * a) by field. setoid_replace ((4 - (a * 1 + 0) - (0 + 0 * 0 + 0 * (0 * 0))) / 1) with (4 - a) by field. setoid_replace ((2 - (a * 0 + 0) - (0 + 0 * 0 + 0 * (0 * 0))) / 1) with 2 by field.
  pose proof (sq0 (2 - 2 * a)). pose proof (sq0 (4 - a)). lra.
Qed.
Print Assumptions C69_perfect_refuted.
(** the merit compares the flux without continuum with the model with its continuum: with the same lines, the continuum changes the offset chosen *)
Theorem C69_continuum_refuted : chosen (run_off [2; 5; 2] [0; 0; 0] 3) = Some 2%nat /\ chosen (run_off [2; 5; 2] [-10; 4; 4] 3) = Some 1%nat.
Proof. split; vm_compute; reflexivity. Qed.
Print Assumptions C69_continuum_refuted.

(** ** Balmer lines: an absorption line (0), an emission line (1) and the line 1 of another element (2) with nominal amplitudes 1 and 3 *)
Definition run_balmer (y : list Q) (before after : option Q) (s : sst) : res sst :=
  balmer zeros (row y) ones (fun _ => tab [[1; 2; 1; 0]; [0; 2; 0; 0]; [0; 0; 1; 2]]) (fun _ => [0; 1; 2; 3]%nat) gs_solve (fun v => v) (1 # 1000) false (fun e k => if Nat.eqb e 2 then row [1; 3] k else 1) None 0 0 1 0 [2%nat] [1%nat] before (fun _ => after) s.
Definition before3 : sst := mkSst (fun e => Some (row [1; 2; 6] e)) (fun _ => Some 0) (fun _ => no_poly) None.
(** the joint fit is kept if the residual does not grow *)
Example C69_balmer_case : amps (run_balmer [1; 4; 3; 4] (Some 5) (Some 4) before3) [0; 1; 2]%nat = [1; 1; 2].
Proof. vm_compute. reflexivity. Qed.
(** the amplitudes of the joint fit are kept also when negative *)
Theorem C69_balmer_negative_refuted : amps (run_balmer [1; 0; 3; 4] (Some 5) (Some 4) before3) [0; 1; 2]%nat = [1; -1; 2].
Proof. vm_compute. reflexivity. Qed.
Print Assumptions C69_balmer_negative_refuted.
(** a rejected fit does not give back the amplitude of an element with several lines: the amplitude of its first line is divided by the nominal amplitude of another *)
Theorem C69_balmer_restore_refuted : amps (run_balmer [1; 4; 3; 4] (Some 4) (Some 5) before3) [0; 1; 2]%nat = [1; 2; 2] /\ map (s_amp before3) [0; 1; 2]%nat = map Some [1; 2; 6].
Proof. split; vm_compute; reflexivity. Qed.
Print Assumptions C69_balmer_restore_refuted.
