(** Amplitude rules: properties C37, C38, C39. *)
From Coq Require Import String.
From Verif Require Import Base RulesModel RulesSpec RulesProofs.
Open Scope string_scope.
Open Scope Q_scope.

(** helpers for the concrete cases: an in-range line and an emission/absorption element *)
Definition ln (name : string) (f : force) (n : Q) (a s : option Q) : line := mkLine name f n a s false false.
Definition el (t : ltype) (ls : list line) : elt := mkElt t ls (-1) false false.

(** ** C37: ratio-range rule (OII, CIII doublets) *)
Theorem C37_unchanged_within_range : forall es tagA tagB iA iB eA eB jA jB lA lB a b ea eb R,
  doublet es tagA tagB iA iB eA eB jA jB lA lB a b ea eb -> 0 < R ->
  Qabs a <= R * Qabs b -> Qabs b <= R * Qabs a -> ruleRatioRange Emission tagA tagB R es = Ok es.
Proof. exact ratio_rule_within. Qed.
Print Assumptions C37_unchanged_within_range.

Theorem C37_first_line_too_high : forall es tagA tagB iA iB eA eB jA jB lA lB a b ea eb R,
  doublet es tagA tagB iA iB eA eB jA jB lA lB a b ea eb -> 1 <= R -> ~ (ea == 0 /\ eb == 0) ->
  R * Qabs b < Qabs a ->
  exists es' lA' lB' a' b', ruleRatioRange Emission tagA tagB R es = Ok es' /\
    line_at es' iA jA lA' /\ line_at es' iB jB lB' /\ fit lA' = Some a' /\ fit lB' = Some b' /\
    a' == R * b' /\
    a' * (ivw ea 1 + ivw eb R) == a * ivw ea 1 + (R * b) * ivw eb R /\ between a' a (R * b) /\
    untouched_but [iA; iB] es es'.
Proof. exact ratio_rule_A_high. Qed.
Print Assumptions C37_first_line_too_high.

Theorem C37_second_line_too_high : forall es tagA tagB iA iB eA eB jA jB lA lB a b ea eb R,
  doublet es tagA tagB iA iB eA eB jA jB lA lB a b ea eb -> 1 <= R -> ~ (ea == 0 /\ eb == 0) ->
  R * Qabs a < Qabs b ->
  exists es' lA' lB' a' b', ruleRatioRange Emission tagA tagB R es = Ok es' /\
    line_at es' iA jA lA' /\ line_at es' iB jB lB' /\ fit lA' = Some a' /\ fit lB' = Some b' /\
    b' == R * a' /\
    b' * (ivw eb 1 + ivw ea R) == b * ivw eb 1 + (R * a) * ivw ea R /\ between b' b (R * a) /\
    untouched_but [iA; iB] es es'.
Proof. exact ratio_rule_B_high. Qed.
Print Assumptions C37_second_line_too_high.

Definition oii (a b : Q) (ea eb : Q) : list elt :=
  [ el Emission [ln "Hbeta" Strong 1 (Some 7) (Some 1)];
    el Emission [ln "[OII]3726" Strong 1 (Some a) (Some ea)];
    el Emission [ln "[OII]3729" Strong 1 (Some b) (Some eb)] ].
Example C37_doublet_exists : forall a b ea eb,
  doublet (oii a b ea eb) "[OII]3726" "[OII]3729" 1 2 (el Emission [ln "[OII]3726" Strong 1 (Some a) (Some ea)])
    (el Emission [ln "[OII]3729" Strong 1 (Some b) (Some eb)]) 0 0
    (ln "[OII]3726" Strong 1 (Some a) (Some ea)) (ln "[OII]3729" Strong 1 (Some b) (Some eb)) a b ea eb.
Proof.
  intros. split; try reflexivity; try discriminate; try (repeat split; reflexivity).
  - apply findElementIndex_spec; [discriminate|reflexivity].
  - apply findElementIndex_spec; [discriminate|reflexivity].
Qed.
Example C37_case : exists es', ruleRatioRange Emission "[OII]3726" "[OII]3729" (5 # 2) (oii 10 2 1 1) = Ok es' /\
  map (fun e => map (fun l => match fit l with Some v => Qred v | None => 0 end) (elines e)) es' =
  [[7]; [270 # 29]; [108 # 29]].
Proof. eexists; split; vm_compute; reflexivity. Qed.

(** both errors null: the amplitudes of the doublet are lost *)
Theorem C37_null_errors_refuted : exists es es' lA lB,
  doublet es "[OII]3726" "[OII]3729" 1 2 (el Emission [lA]) (el Emission [lB]) 0 0 lA lB 10 1 0 0 /\
  ruleRatioRange Emission "[OII]3726" "[OII]3729" (5 # 2) es = Ok es' /\
  (forall i l, (i = 1 \/ i = 2)%nat -> line_at es' i 0 l -> fit l = None).
Proof.
  exists (oii 10 1 0 0). eexists. do 2 eexists. split; [apply C37_doublet_exists|].
  split; [vm_compute; reflexivity|]. intros i l [->| ->] [e [He Hl]]; simpl in He; injection He as <-;
    simpl in Hl; injection Hl as <-; reflexivity.
Qed.
Print Assumptions C37_null_errors_refuted.

(** a nominal amplitude other than 1: the rule sets element amplitudes where line amplitudes were meant, and the
    doublet it leaves violates the ratio *)
Theorem C37_nominal_amplitude_refuted : exists es es' lA lB a b,
  (exists lA0 lB0, line_at es 0 0 lA0 /\ line_at es 1 0 lB0 /\ nom lA0 == 2 /\ nom lB0 == 1 /\
     fit lA0 = Some 10 /\ fit lB0 = Some 2) /\
  ruleRatioRange Emission "[OII]3726" "[OII]3729" (5 # 2) es = Ok es' /\
  line_at es' 0 0 lA /\ line_at es' 1 0 lB /\ fit lA = Some a /\ fit lB = Some b /\
  10 < a /\ (5 # 2) * Qabs b < Qabs a.
Proof.
  exists [ el Emission [ln "[OII]3726" Strong 2 (Some 10) (Some 1)]; el Emission [ln "[OII]3729" Strong 1 (Some 2) (Some 1)] ].
  do 5 eexists. split.
  { do 2 eexists. split; [eexists; split; reflexivity|]. split; [eexists; split; reflexivity|]. repeat split. }
  split; [vm_compute; reflexivity|].
  split; [eexists; split; reflexivity|]. split; [eexists; split; reflexivity|].
  split; [reflexivity|]. split; [reflexivity|]. split; reflexivity.
Qed.
Print Assumptions C37_nominal_amplitude_refuted.

(** ** C39: limiting an amplitude *)
Theorem C39_limit : forall i lim e l f, nth_error (elines e) i = Some l -> fit l = Some f -> ~ nom l == 0 ->
  (f <= lim -> limitFittedAmplitude i (Some lim) e = Ok (false, e)) /\
  (lim < f -> exists e', limitFittedAmplitude i (Some lim) e = Ok (true, e') /\
     same_elt (fun k k' => fstd k' = fstd k /\ exists v, fit k' = Some v /\ v * nom l == nom k * Qmax 0 lim) e e' /\
     exists l' v, nth_error (elines e') i = Some l' /\ fit l' = Some v /\ v == Qmax 0 lim).
Proof. exact limit_spec. Qed.
Print Assumptions C39_limit.
Theorem C39_undefined_amplitude_kept : forall i lim e l, nth_error (elines e) i = Some l -> fit l = None ->
  limitFittedAmplitude i lim e = Ok (false, e).
Proof. exact limit_nan. Qed.
Print Assumptions C39_undefined_amplitude_kept.
Theorem C39_never_raises : forall i cap e l A, nth_error (elines e) i = Some l -> positive_nominals e -> 0 <= A -> scaled A e ->
  exists b e' A', limitFittedAmplitude i (Some cap) e = Ok (b, e') /\ same_elt not_raised e e' /\
    0 <= A' /\ A' <= A /\ scaled A' e' /\
    (forall l', nth_error (elines e') i = Some l' -> forall v, fit l' = Some v -> v <= Qmax 0 cap).
Proof. exact limit_step. Qed.
Print Assumptions C39_never_raises.
Example C39_case : exists e', limitFittedAmplitude 1 (Some 3) (el Emission [ln "a" Weak 1 (Some 2) None; ln "b" Weak 3 (Some 6) None])
  = Ok (true, e') /\ map (fun l => option_map Qred (fit l)) (elines e') = [Some 1; Some 3].
Proof. eexists; split; vm_compute; reflexivity. Qed.

(** limiting a line revives the lines of its element that are outside the wavelength range (amplitude NaN) *)
Theorem C39_outside_line_revived_refuted : exists e e' l l' v,
  nth_error (elines e) 1 = Some l /\ lout l = true /\ fit l = None /\
  limitFittedAmplitude 0 (Some 1) e = Ok (true, e') /\ nth_error (elines e') 1 = Some l' /\ fit l' = Some v /\ 0 < v.
Proof.
  exists (mkElt Emission [ln "a" Weak 1 (Some 2) None; mkLine "b" Weak 3 None None true true] (-1) false false).
  do 4 eexists. repeat split; try (vm_compute; reflexivity).
Qed.
Print Assumptions C39_outside_line_revived_refuted.
(** a negative amplitude above a negative limit is raised to 0 *)
Theorem C39_negative_amplitude_raised_refuted : exists e e' l v,
  fit (ln "a" Weak 1 (Some (-1)) None) = Some (-1) /\ elines e = [ln "a" Weak 1 (Some (-1)) None] /\
  limitFittedAmplitude 0 (Some (-5)) e = Ok (true, e') /\ nth_error (elines e') 0 = Some l /\ fit l = Some v /\ -1 < v.
Proof.
  exists (el Emission [ln "a" Weak 1 (Some (-1)) None]). do 3 eexists. repeat split; vm_compute; reflexivity.
Qed.
Print Assumptions C39_negative_amplitude_raised_refuted.
(** absorption lines clamped by the absorption limit are not proportional any more: limiting one of them raises
    another one beyond that limit *)
Theorem C39_absorption_limit_broken_refuted : exists e e1 e2 l1 l2 v1 v2,
  e1 = setAmplitudes (Some 1) (Some 1) e /\ eabs e == 1 /\ nth_error (elines e1) 1 = Some l1 /\ fit l1 = Some v1 /\ v1 <= 1 /\
  limitFittedAmplitude 0 (Some (1 # 2)) e1 = Ok (true, e2) /\
  nth_error (elines e2) 1 = Some l2 /\ fit l2 = Some v2 /\ 1 < v2.
Proof.
  exists (mkElt Absorption [ln "a" Weak 1 None None; ln "b" Weak 4 None None] 1 false false).
  do 6 eexists. split; [reflexivity|]. split; [reflexivity|]. split; [vm_compute; reflexivity|].
  split; [reflexivity|]. split; [discriminate|]. split; [vm_compute; reflexivity|].
  split; [reflexivity|]. split; reflexivity.
Qed.
Print Assumptions C39_absorption_limit_broken_refuted.

(** ** C38: rules that lower amplitudes *)
Theorem C38_two_lines : forall es tagA tagB iA iB eA eB lA lB a b coef,
  designates es Emission tagA iA 0 -> designates es Emission tagB iB 0 -> iA <> iB ->
  nth_error es iA = Some eA -> nth_error es iB = Some eB ->
  elines eA = [lA] -> elines eB = [lB] -> eout eA = false ->
  fit lA = Some a -> fit lB = Some b -> 0 < coef -> ~ nom lB == 0 ->
  exists es' lB' b', rule2SingleLines Emission tagA tagB coef es = Ok es' /\
    line_at es' iB 0 lB' /\ same_line lB lB' /\ fstd lB' = fstd lB /\ fit lB' = Some b' /\
    (b <= coef * a \/ b <= 0 -> b' == b) /\
    (coef * a < b /\ 0 < b -> b' == Qmax 0 (coef * a)) /\
    untouched_but [iB] es es'.
Proof. exact two_lines_rule. Qed.
Print Assumptions C38_two_lines.

Theorem C38_two_lines_only_lowers : forall tagA tagB coef es, 0 < coef -> (forall e, In e es -> positive_nominals e) ->
  exists es', rule2SingleLines Emission tagA tagB coef es = Ok es' /\ Forall2 (same_elt not_raised) es es' /\
    forall i, (forall j, ~ designates es Emission tagB i j) -> nth_error es' i = nth_error es i.
Proof. exact two_single_frame. Qed.
Print Assumptions C38_two_lines_only_lowers.

Theorem C38_strong_weak : forall ty es, (forall e, In e es -> fitted_elt e) ->
  (no_strong es ty /\ ruleStrongWeak ty es = Ok es) \/
  exists m er, lowest_strong es ty m er /\
    ((er = None /\ ruleStrongWeak ty es = Throw INTERNAL_ERROR) \/
     exists s es', er = Some s /\ ruleStrongWeak ty es = Ok es' /\
       Forall2 (fun e e' => same_elt not_raised e e' /\ fitted_elt e' /\ (etype e <> ty -> e' = e)) es es' /\
       (forall l v, in_range_line es' ty l -> lforce l = Weak -> fit l = Some v -> v <= Qmax 0 (m + s)) /\
       (unmixed es ty -> lowest_strong es' ty m er)).
Proof. exact strong_weak_total. Qed.
Print Assumptions C38_strong_weak.

(** after the emission Balmer rules, every enabled pair of the series satisfies its constraint, whatever the
    other rules of the series did *)
Theorem C38_balmer_series : forall opt pre post tagA tagB coef es iA iB eA eB lA lB a b,
  emission_balmer = (pre ++ TwoSingle Emission tagA tagB coef :: post)%list ->
  enabled opt (TwoSingle Emission tagA tagB coef) = true ->
  (forall e, In e es -> positive_nominals e) ->
  designates es Emission tagA iA 0 -> designates es Emission tagB iB 0 -> iA <> iB ->
  nth_error es iA = Some eA -> nth_error es iB = Some eB -> elines eA = [lA] -> elines eB = [lB] -> eout eA = false ->
  fit lA = Some a -> fit lB = Some b ->
  (forall r j, In r post -> ~ designates es Emission (target r) iA j /\ ~ designates es Emission (target r) iB j) ->
  exists es' lA' lB' a' b', applyAll opt emission_balmer es = Ok es' /\
    line_at es' iA 0 lA' /\ line_at es' iB 0 lB' /\ fit lA' = Some a' /\ fit lB' = Some b' /\
    a' <= a /\ b' <= b /\ b' <= Qmax 0 (coef * a').
Proof.
  intros opt pre post tagA tagB coef es iA iB eA eB lA lB a b Hs. rewrite Hs.
  apply chain_constraint. rewrite <- Hs. repeat constructor.
Qed.
Print Assumptions C38_balmer_series.

(** whatever the option, the rules keep every amplitude non-negative; the only other outcome is the exception on an
    undefined strong-line error *)
Theorem C38_amplitudes_stay_nonnegative : forall opt es, sound es ->
  (exists es', applyRules opt es = Ok es' /\ sound es') \/ applyRules opt es = Throw INTERNAL_ERROR.
Proof. exact applyRules_sound. Qed.
Print Assumptions C38_amplitudes_stay_nonnegative.

(** which rules run: every rule with the option "all", otherwise the rules whose name occurs in the option *)
Theorem C38_option_selects : forall opt r, opt <> "no"%string ->
  (enabled opt r = true <-> opt = "all"%string \/ exists p q, opt = (p ++ rule_name r ++ q)%string).
Proof.
  intros opt r N. rewrite enabled_iff. split; [intros [H|H]; [contradiction|exact H]|auto].
Qed.
Print Assumptions C38_option_selects.
Theorem C38_option_all : forall es,
  applyRules "all" es = fold_left (fun acc r => rbind acc (correct r)) regulament (Ok es).
Proof. exact applyRules_all. Qed.
Print Assumptions C38_option_all.
Theorem C38_option_without_rule_names : forall opt es, opt <> "no"%string ->
  (forall r, In r regulament -> enabled opt r = false) -> applyRules opt es = Ok es.
Proof. exact applyRules_none_enabled. Qed.
Print Assumptions C38_option_without_rule_names.
Example C38_option_nonvacuous : enabled "ratioRange,strongWeak" (StrongWeak Emission) = true /\
  enabled "ratioRange,strongWeak" (TwoSingle Emission "Halpha" "Hbeta" 1) = false /\
  (forall r, In r regulament -> enabled "nothing" r = false).
Proof. split; [reflexivity|split; [reflexivity|]]. intros r Hr. simpl in Hr. repeat (destruct Hr as [<-|Hr]; [reflexivity|]). destruct Hr. Qed.

Theorem C38_no_rules : forall es, applyRules "no" es = Ok es.
Proof. reflexivity. Qed.
Print Assumptions C38_no_rules.

Definition balmer (a b c : Q) : list elt :=
  [ el Emission [ln "Halpha" Strong 1 (Some a) (Some (1 # 10))]; el Emission [ln "Hbeta" Strong 1 (Some b) (Some (1 # 10))];
    el Emission [ln "Hgamma" Weak 1 (Some c) (Some (1 # 10))] ].
Example C38_balmer_case : exists es', applyRules "all" (balmer 286 150 150) = Ok es' /\
  map (fun e => map (fun l => option_map Qred (fit l)) (elines e)) es' = [[Some 286]; [Some 110]; [Some (5687 # 100)]].
Proof. eexists; split; vm_compute; reflexivity. Qed.
Example C38_balmer_hyps : forall a b c, sound (balmer (Qabs a) (Qabs b) (Qabs c)) /\
  designates (balmer a b c) Emission "Hbeta" 1 0 /\ designates (balmer a b c) Emission "Hgamma" 2 0 /\
  (forall j, ~ designates (balmer a b c) Emission "Hdelta" 1 j).
Proof.
  intros. split; [|split; [|split]].
  - intros e He. simpl in He.
    pose proof (Qabs_nonneg a). pose proof (Qabs_nonneg b). pose proof (Qabs_nonneg c).
    repeat (destruct He as [<-|He]; [split; [intros l [<-|[]]; reflexivity|
      intros l v [<-|[]] Hv; injection Hv as <-; assumption]|]). destruct He.
  - apply findElementIndex_spec; [discriminate|reflexivity].
  - apply findElementIndex_spec; [discriminate|reflexivity].
  - intros j D. apply findElementIndex_spec in D; [discriminate D|discriminate].
Qed.
Example C38_strong_weak_case : exists es',
  ruleStrongWeak Emission [el Emission [ln "s" Strong 1 (Some 2) (Some (1 # 2))]; el Emission [ln "w" Weak 1 (Some 4) None; ln "x" Weak 2 (Some 8) None]]
    = Ok es' /\
  map (fun e => map (fun l => option_map Qred (fit l)) (elines e)) es' = [[Some 2]; [Some (5 # 4); Some (5 # 2)]].
Proof. eexists; split; vm_compute; reflexivity. Qed.
Example C38_fitted_exists : forall e, In e [el Emission [ln "s" Strong 1 (Some 2) (Some (1 # 2))];
    el Emission [ln "w" Weak 1 (Some 4) None; ln "x" Weak 2 (Some 8) None]] -> fitted_elt e.
Proof.
  intros e [<-|[<-|[]]]; (split; [|split]).
  - intros l [<-|[]]; reflexivity.
  - exists 2. split; [discriminate|]. intros l [<-|[]]. reflexivity.
  - intros l [<-|[]] _. eexists; reflexivity.
  - intros l [<-|[<-|[]]]; reflexivity.
  - exists 4. split; [discriminate|]. intros l [<-|[<-|[]]]; reflexivity.
  - intros l [<-|[<-|[]]] _; eexists; reflexivity.
Qed.

(** an element with both strong and weak lines: limiting the weak one lowers the strong one too, and the weak lines
    end above the lowest strong line (plus its error) *)
Theorem C38_mixed_element_refuted : exists es es' m s w vs vw,
  (forall e, In e es -> fitted_elt e) /\ lowest_strong es Emission m (Some (1 # 10)) /\
  ruleStrongWeak Emission es = Ok es' /\
  in_range_line es' Emission s /\ lforce s = Strong /\ fit s = Some vs /\ fstd s = Some (1 # 10) /\
  in_range_line es' Emission w /\ lforce w = Weak /\ fit w = Some vw /\ vs + (1 # 10) < vw.
Proof.
  set (e0 := el Emission [ln "s" Strong 1 (Some 2) (Some (1 # 10)); ln "w" Weak 4 (Some 8) (Some (1 # 10))]).
  exists [e0]. eexists. exists 2. do 4 eexists.
  split; [intros e [<-|[]]; split; [|split]|].
  { intros l [<-|[<-|[]]]; reflexivity. }
  { exists 2. split; [discriminate|]. intros l [<-|[<-|[]]]; reflexivity. }
  { intros l [<-|[<-|[]]] _; eexists; reflexivity. }
  split.
  { split.
    - eexists. split; [exists e0; split; [left; reflexivity|]; split; [reflexivity|]; split; [left; reflexivity|reflexivity]|].
      repeat split.
    - intros l v [e [[<-|[]] [_ [[<-|[<-|[]]] _]]]] F V; [injection V as <-; discriminate|discriminate]. }
  split; [vm_compute; reflexivity|].
  split; [eexists; split; [left; reflexivity|]; split; [reflexivity|]; split; [left; reflexivity|reflexivity]|].
  split; [reflexivity|]. split; [reflexivity|]. split; [reflexivity|].
  split; [eexists; split; [left; reflexivity|]; split; [reflexivity|]; split; [right; left; reflexivity|reflexivity]|].
  split; [reflexivity|]. split; reflexivity.
Qed.
Print Assumptions C38_mixed_element_refuted.

(** the six absorption Balmer rules never act on a model whose emission elements do not carry absorption names:
    they are set up with the emission type *)
Theorem C38_absorption_balmer_never_applied : forall opt es,
  (forall e l, In e es -> etype e = Emission -> In l (elines e) ->
     forall r, In r absorption_balmer -> contains (target r) (lname l) = false) ->
  applyAll opt absorption_balmer es = Ok es.
Proof. exact absorption_balmer_idle. Qed.
Print Assumptions C38_absorption_balmer_never_applied.
Theorem C38_absorption_balmer_refuted : exists es es', applyRules "all" es = Ok es' /\ es' = es /\
  exists l l' v v', line_at es' 0 0 l /\ lname l = "HbetaA" /\ fit l = Some v /\
    line_at es' 1 0 l' /\ lname l' = "HgammaA" /\ fit l' = Some v' /\ (11 # 10) * v < v'.
Proof.
  exists [el Absorption [ln "HbetaA" Strong 1 (Some (1 # 10)) (Some 0)]; el Absorption [ln "HgammaA" Strong 1 (Some (1 # 2)) (Some 0)]].
  eexists. split; [vm_compute; reflexivity|]. split; [reflexivity|].
  do 4 eexists. split; [eexists; split; reflexivity|]. split; [reflexivity|]. split; [reflexivity|].
  split; [eexists; split; reflexivity|]. split; [reflexivity|]. split; reflexivity.
Qed.
Print Assumptions C38_absorption_balmer_refuted.
(** tags are matched as substrings: a line whose name contains the tag hides the intended one *)
Theorem C38_tag_substring_refuted : exists es es', applyRules "all" es = Ok es' /\
  exists l l' v v', line_at es' 0 0 l /\ lname l = "Halpha" /\ fit l = Some v /\
    line_at es' 2 0 l' /\ lname l' = "Hbeta" /\ fit l' = Some v' /\ (1 # 2) * v < v'.
Proof.
  exists [el Emission [ln "Halpha" Strong 1 (Some 10) (Some 1)]; el Emission [ln "Hbeta_broad" Strong 1 (Some 1) (Some 1)];
          el Emission [ln "Hbeta" Strong 1 (Some 9) (Some 1)]].
  eexists. split; [vm_compute; reflexivity|].
  do 4 eexists. split; [eexists; split; reflexivity|]. split; [reflexivity|]. split; [reflexivity|].
  split; [eexists; split; reflexivity|]. repeat split.
Qed.
Print Assumptions C38_tag_substring_refuted.
