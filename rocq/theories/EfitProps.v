(** C66: the model spectrum of the lines. *)
From Verif Require Import Base RangeModel AxisModel AxisProofs ElemModel ElemSpec ElemProofs EfitModel EfitSpec EfitProofs EfitProofs2 EfitProofs3 EfitProofs4.
Open Scope Q_scope.

(** ** adding an element to a spectrum: at each sample, each used line whose group has the sample in its support is added exactly once, and nothing else *)
Theorem C66_lines_added : forall avail width prof axis z r mo ls s, strictly_increasing axis -> (0 < length axis)%nat -> prepared_for avail width axis z r mo ls s ->
  forall z' li flux cont, lsf_known avail s ls z' -> length cont = length axis -> length flux = length axis ->
  exists flux', addToSpectrumModel avail width prof s ls axis flux cont z' li = Ok flux' /\ length flux' = length flux /\
    forall t x c v, nth_error axis t = Some x -> nth_error cont t = Some c -> nth_error flux t = Some v ->
      exists v' g, nth_error flux' t = Some v' /\ lines_at width prof s ls li z' x c t g /\ v' == v + sumn g (length ls).
Proof. exact Lines_added. Qed.
Print Assumptions C66_lines_added.
(** initialising under an element puts the continuum on the samples of its supports and on no other *)
Theorem C66_init : forall avail width axis z r mo ls s, strictly_increasing axis -> (0 < length axis)%nat -> prepared_for avail width axis z r mo ls s ->
  forall li flux cont, length cont = length axis -> length flux = length axis ->
  exists flux', initSpectrumModel s flux cont li = Ok flux' /\ length flux' = length flux /\
    forall t, (t < length flux)%nat -> (covered s li t -> nth_error flux' t = nth_error cont t) /\ (~ covered s li t -> nth_error flux' t = nth_error flux t).
Proof. exact Init_model. Qed.
Print Assumptions C66_init.
(** ** the model spectrum: the continuum and the lines of the elements of the type asked *)
Theorem C66_refresh : forall avail width prof axis z r mo, strictly_increasing axis -> (0 < length axis)%nat ->
  forall filter es cont, length cont = length axis -> Forall (good_element avail width axis z r mo) es ->
  exists model, refreshModel avail width prof es axis cont z filter = Ok model /\ length model = length axis /\
    forall t x c, nth_error axis t = Some x -> nth_error cont t = Some c -> exists v, nth_error model t = Some v /\ is_model_at width prof (of_type filter es) z x c t v.
Proof. exact Refresh. Qed.
Print Assumptions C66_refresh.
(** the model is determined *)
Theorem C66_model_unique : forall avail width prof axis z r mo, strictly_increasing axis -> (0 < length axis)%nat ->
  forall es x c t v v', Forall (good_element avail width axis z r mo) es -> is_model_at width prof es z x c t v -> is_model_at width prof es z x c t v' -> v == v'.
Proof. exact model_unique. Qed.
Print Assumptions C66_model_unique.
(** refreshing under some elements: on their supports the model is the continuum and their lines, elsewhere it does not change *)
Theorem C66_refresh_under : forall avail width prof axis z r mo, strictly_increasing axis -> (0 < length axis)%nat ->
  forall es cont model, length cont = length axis -> length model = length axis -> Forall (good_element avail width axis z r mo) es ->
  exists model', refreshModelUnderElements avail width prof es axis model cont z None = Ok model' /\ length model' = length axis /\
    forall t x c v, nth_error axis t = Some x -> nth_error cont t = Some c -> nth_error model t = Some v -> exists v', nth_error model' t = Some v' /\
      (covered_by es t -> is_model_at width prof es z x c t v') /\ (~ covered_by es t -> v' == v).
Proof. exact Refresh_under. Qed.
Print Assumptions C66_refresh_under.
(** after a change of the amplitudes of some elements, refreshing under them is enough when no sample is in their supports and in those of another element *)
Theorem C66_refresh_local : forall avail width prof axis z r mo, strictly_increasing axis -> (0 < length axis)%nat ->
  forall old new others cont model, length cont = length axis -> Forall (good_element avail width axis z r mo) old -> Forall (good_element avail width axis z r mo) new ->
  Forall (good_element avail width axis z r mo) others -> Forall2 (fun a b => x_s a = x_s b) old new -> (forall t, ~ (covered_by new t /\ covered_by others t)) ->
  refreshModel avail width prof (old ++ others) axis cont z None = Ok model ->
  exists model', refreshModelUnderElements avail width prof new axis model cont z None = Ok model' /\ length model' = length axis /\
    forall t x c, nth_error axis t = Some x -> nth_error cont t = Some c -> exists v, nth_error model' t = Some v /\ is_model_at width prof (new ++ others) z x c t v.
Proof. exact Refresh_local. Qed.
Print Assumptions C66_refresh_local.

(** ** the model at one wavelength and its derivatives *)
Theorem C66_model_at_lambda : forall avail width prof axis z r mo ls s, strictly_increasing axis -> (0 < length axis)%nat -> prepared_for avail width axis z r mo ls s ->
  forall z' x c, lsf_known avail s ls z' ->
  exists y g, getModelAtLambda avail width prof s ls x z' c None = Ok y /\ all_used_lines width prof s ls z' x c g /\ y == sumn g (length ls).
Proof. exact Model_at_lambda. Qed.
Print Assumptions C66_model_at_lambda.
Theorem C66_model_throws : forall avail width prof axis z r mo ls s, strictly_increasing axis -> (0 < length axis)%nat -> prepared_for avail width axis z r mo ls s ->
  forall z' x c k l A, nth_error ls k = Some l -> used s k -> shown l A -> avail (line_center l z') = false ->
  getModelAtLambda avail width prof s ls x z' c None = Throw INTERNAL_ERROR.
Proof. exact Model_throws. Qed.
Print Assumptions C66_model_throws.
(** the model is the amplitude times its derivative *)
Theorem C66_deriv_amplitude : forall avail width prof axis z r mo ls s, strictly_increasing axis -> (0 < length axis)%nat -> prepared_for avail width axis z r mo ls s ->
  forall z' x c A, lsf_known_all avail s ls z' -> of_amplitude s ls A -> 0 <= A -> (forall k l, nth_error ls k = Some l -> used s k -> 0 <= el_nom l) ->
  exists y d, getModelAtLambda avail width prof s ls x z' c None = Ok y /\ GetModelDerivAmplitudeAtLambda avail width prof s ls x z' c = Ok d /\ y == A * d.
Proof. exact Deriv_amplitude. Qed.
Print Assumptions C66_deriv_amplitude.
(** the model is affine in the amplitude of the continuum, with the slope returned *)
Theorem C66_deriv_continuum : forall avail width prof axis z r mo ls s, strictly_increasing axis -> (0 < length axis)%nat -> prepared_for avail width axis z r mo ls s ->
  forall z' x c0 a, lsf_known_all avail s ls z' ->
  (forall k l A, nth_error ls k = Some l -> used s k -> el_neg l = true -> el_fit l = Some A -> 0 <= A) ->
  exists y y0 d, getModelAtLambda avail width prof s ls x z' (a * c0) None = Ok y /\ getModelAtLambda avail width prof s ls x z' 0 None = Ok y0 /\
    GetModelDerivContinuumAmpAtLambda avail width prof s ls x z' c0 = Ok d /\ y == y0 + a * d.
Proof. exact Deriv_continuum. Qed.
Print Assumptions C66_deriv_continuum.
(** ** the mean position and the amplitude of an element *)
Theorem C66_mean_position : forall avail width axis z r mo ls s, (0 < length axis)%nat -> prepared_for avail width axis z r mo ls s -> forall z' asym,
  ((forall k, ~ used s k) -> GetMeanObservedPosition s ls z' asym = Throw INTERNAL_ERROR) /\
  ((exists k, used s k) -> exists m, GetMeanObservedPosition s ls z' asym = Ok m /\
     (forall lo hi, (forall k l, nth_error ls k = Some l -> used s k -> lo <= GetObservedPosition (el_s l) z' asym <= hi) -> lo <= m <= hi) /\
     forall g, (forall k l, nth_error ls k = Some l -> (used s k -> g k == GetObservedPosition (el_s l) z' asym) /\ (~ used s k -> g k == 0)) ->
       m * inject_Z (Z.of_nat (length (filter (fun i => negb (s_out s i)) (seq 0 (length ls))))) == sumn g (length ls)).
Proof. exact Mean_position. Qed.
Print Assumptions C66_mean_position.
Theorem C66_element_amplitude : forall avail width axis z r mo ls s, strictly_increasing axis -> (0 < length axis)%nat -> prepared_for avail width axis z r mo ls s ->
  forall A, of_amplitude s ls A ->
  ((exists k l, nth_error ls k = Some l /\ used s k /\ ~ el_nom l == 0) -> exists a, GetElementAmplitude s ls = Some a /\ a == A) /\
  ((forall k l, nth_error ls k = Some l -> used s k -> el_nom l == 0) -> GetElementAmplitude s ls = None).
Proof. exact Element_amplitude. Qed.
Print Assumptions C66_element_amplitude.
(** the continuum at the centre of a line is read on the first sample at or after the centre, or on the last sample *)
Theorem C66_center_continuum : forall l axis z cont poly, strictly_increasing axis -> (0 < length axis)%nat -> length cont = length axis ->
  exists i x c, nth_error axis i = Some x /\ nth_error cont i = Some c /\ (forall j y, (j < i)%nat -> nth_error axis j = Some y -> y < line_mu (el_s l) z) /\
    (line_mu (el_s l) z <= x \/ i = (length axis - 1)%nat) /\
    GetContinuumAtCenterProfile l axis z cont poly = Ok (Some (match poly with Some f => c + f x | None => c end)).
Proof. exact Center_continuum. Qed.
Print Assumptions C66_center_continuum.

(** ** what goes wrong *)
Definition ax (n : nat) : list Q := map (fun i => inject_Z (Z.of_nat i)) (seq 0 n).
Definition ln (neg : bool) (p w a : Q) : eline := mkEline (mkSline p 0 0 w) neg 1 (Some a).
Definition all_avail : Q -> bool := fun _ => true.
Definition unit_w : Q -> Q := fun _ => 1.
(** a profile which is not null far from the line *)
Definition wide : nat -> Q -> Q -> Q -> Q := fun _ x mu _ => 1 / (1 + (x - mu) * (x - mu)).
Lemma wit (avail : Q -> bool) (axis : list Q) (r : range) (ls : list eline) (P : support -> Prop) : (Z.of_nat (length ls) < 2 ^ 21)%Z ->
  match prepareSupport avail unit_w (map el_s ls) axis 0 r 0 with Ok s => P s | _ => False end -> exists s, prepared_for avail unit_w axis 0 r 0 ls s /\ P s.
Proof. intros L. unfold prepared_for. destruct (prepareSupport avail unit_w (map el_s ls) axis 0 r 0) as [s| |]; [eauto|contradiction|contradiction]. Qed.
Ltac witness := apply wit; [reflexivity|vm_compute; repeat split; auto; try discriminate].
(** a line is accepted when the line spread function is known at its centre shifted by the asymmetry of its profile, but its model asks for it at the centre *)
Theorem C66_lsf_border_refuted : let l := mkEline (mkSline 11 0 2 4) false 1 (Some 1) in exists s,
  prepared_for (fun x => Qle_bool x 10) unit_w (ax 21) 0 (mkRange 0 20) 0 [l] s /\ used s 0 /\
  addToSpectrumModel (fun x => Qle_bool x 10) unit_w wide s [l] (ax 21) (ax 21) (ax 21) 0 None = Throw INTERNAL_ERROR.
Proof. intros l. subst l. witness. Qed.
Print Assumptions C66_lsf_border_refuted.
(** the derivative with respect to the amplitude counts the lines of the other groups, which the model of the spectrum does not have *)
Theorem C66_deriv_other_groups_refuted : let ls := [ln false 4 4 1; ln false 16 4 1] in exists s,
  prepared_for all_avail unit_w (ax 21) 0 (mkRange 0 20) 0 ls s /\ used s 0 /\ used s 1 /\ (exists a, GetElementAmplitude s ls = Some a /\ a == 1) /\
  (exists d m, GetModelDerivAmplitudeAtLambda all_avail unit_w wide s ls 4 0 0 = Ok d /\
     addToSpectrumModel all_avail unit_w wide s ls (ax 21) (map (fun _ => 0) (ax 21)) (map (fun _ => 0) (ax 21)) 0 None = Ok m /\ nth 4 m 0 < d).
Proof.
  intros ls. subst ls. apply wit; [reflexivity|]. vm_compute. split; [auto|]. split; [auto|]. split; [eexists; split; [reflexivity|reflexivity]|].
  eexists. eexists. split; [reflexivity|]. split; [reflexivity|]. reflexivity.
Qed.
Print Assumptions C66_deriv_other_groups_refuted.
(** an absorption line of negative amplitude is not in the model, but it is in its derivative with respect to the amplitude of the continuum *)
Theorem C66_deriv_negative_refuted : let ls := [ln true 10 4 (-1)] in exists s,
  prepared_for all_avail unit_w (ax 21) 0 (mkRange 0 20) 0 ls s /\ used s 0 /\
  (forall c, exists y, getModelAtLambda all_avail unit_w wide s ls 10 0 c None = Ok y /\ y == 0) /\
  (exists d, GetModelDerivContinuumAmpAtLambda all_avail unit_w wide s ls 10 0 1 = Ok d /\ d == 1).
Proof.
  intros ls. subst ls. apply wit; [reflexivity|]. vm_compute. split; [auto|]. split; [intros c; eexists; split; reflexivity|]. eexists. split; reflexivity.
Qed.
Print Assumptions C66_deriv_negative_refuted.
(** refreshing the model under an element removes, on its supports, the lines of the other elements *)
Definition two (p : Q) : list eline := [ln false p 6 1].
Theorem C66_refresh_other_element_refuted : exists s1 s2, prepared_for all_avail unit_w (ax 21) 0 (mkRange 0 20) 0 (two 8) s1 /\
  prepared_for all_avail unit_w (ax 21) 0 (mkRange 0 20) 0 (two 10) s2 /\
  let e1 := mkElement s1 (two 8) true in let e2 := mkElement s2 (two 10) true in let cont := map (fun _ => 0) (ax 21) in
  exists m m', refreshModel all_avail unit_w wide [e1; e2] (ax 21) cont 0 None = Ok m /\
    refreshModelUnderElements all_avail unit_w wide [e1] (ax 21) m cont 0 None = Ok m' /\ nth 10 m' 0 < nth 10 m 0.
Proof.
  destruct (wit all_avail (ax 21) (mkRange 0 20) (two 8) (fun s1 => match prepareSupport all_avail unit_w (map el_s (two 10)) (ax 21) 0 (mkRange 0 20) 0 with
    | Ok s2 => let e1 := mkElement s1 (two 8) true in let e2 := mkElement s2 (two 10) true in let cont := map (fun _ => 0) (ax 21) in
      match refreshModel all_avail unit_w wide [e1; e2] (ax 21) cont 0 None with
      | Ok m => match refreshModelUnderElements all_avail unit_w wide [e1] (ax 21) m cont 0 None with Ok m' => nth 10 m' 0 < nth 10 m 0 | _ => False end
      | _ => False end
    | _ => False end) eq_refl) as (s1 & P1 & H); [vm_compute; reflexivity|].
  destruct (prepareSupport all_avail unit_w (map el_s (two 10)) (ax 21) 0 (mkRange 0 20) 0) as [s2| |] eqn:E2; [|contradiction|contradiction].
  exists s1, s2. split; [exact P1|]. split; [split; [exact E2|reflexivity]|]. cbv zeta in *.
  destruct (refreshModel all_avail unit_w wide [mkElement s1 (two 8) true; mkElement s2 (two 10) true] (ax 21) (map (fun _ => 0) (ax 21)) 0 None) as [m| |]; [|contradiction|contradiction].
  destruct (refreshModelUnderElements all_avail unit_w wide [mkElement s1 (two 8) true] (ax 21) m (map (fun _ => 0) (ax 21)) 0 None) as [m'| |] eqn:E; [|contradiction|contradiction].
  exists m, m'. auto.
Qed.
Print Assumptions C66_refresh_other_element_refuted.
(** for a line out of the spectrum, the continuum at its centre is that of the last sample instead of NaN *)
Theorem C66_center_out_refuted : GetContinuumAtCenterProfile (ln false 1000 4 1) (ax 21) 0 (ax 21) None = Ok (Some 20) /\ line_mu (el_s (ln false 1000 4 1)) 0 == 1000.
Proof. split; vm_compute; reflexivity. Qed.
Print Assumptions C66_center_out_refuted.

(** ** non-vacuity: an absorption and two emission lines *)
Definition mixed : list eline := [ln false 7 6 2; ln true 15 4 1; ln false 9 6 3; ln false 40 6 1].
Example C66_case : exists s, prepared_for all_avail unit_w (ax 21) 0 (mkRange 0 20) 0 mixed s /\ lsf_known all_avail s mixed 0 /\ lsf_known_all all_avail s mixed 0 /\
  map (s_out s) (seq 0 4) = [false; false; false; true] /\
  match addToSpectrumModel all_avail unit_w wide s mixed (ax 21) (map (fun _ => 1) (ax 21)) (map (fun _ => 1) (ax 21)) 0 None with
  | Ok m => Qeq_bool (nth 7 m 0) (1 + 2 + 3 / 5) && Qeq_bool (nth 15 m 0) 0 && Qeq_bool (nth 3 m 0) 1 = true | _ => False end.
Proof.
  assert (K : forall s z, lsf_known all_avail s mixed z /\ lsf_known_all all_avail s mixed z) by (intros s z; split; intros ?; reflexivity).
  destruct (wit all_avail (ax 21) (mkRange 0 20) mixed (fun s => map (s_out s) (seq 0 4) = [false; false; false; true] /\
    match addToSpectrumModel all_avail unit_w wide s mixed (ax 21) (map (fun _ => 1) (ax 21)) (map (fun _ => 1) (ax 21)) 0 None with
    | Ok m => Qeq_bool (nth 7 m 0) (1 + 2 + 3 / 5) && Qeq_bool (nth 15 m 0) 0 && Qeq_bool (nth 3 m 0) 1 = true | _ => False end) eq_refl) as (s & P & H); [vm_compute; split; reflexivity|].
  exists s. split; [exact P|]. split; [apply K|]. split; [apply K|]. exact H.
Qed.
