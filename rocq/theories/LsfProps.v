(** C58: line spread functions. *)
From Coq Require Import String.
From Verif Require Import Base RangeModel RangeProofs LsfModel LsfSpec LsfProofs.
Open Scope Q_scope.

(** ** the constructors accept exactly the usable parameters *)
Theorem C58_constant_width : forall w, (0 < w -> NewLsf (ConstantWidth w) = Ok (ConstantWidth w)) /\ (w <= 0 -> NewLsf (ConstantWidth w) = Throw INVALID_LSF).
Proof. exact New_const. Qed.
Print Assumptions C58_constant_width.
Theorem C58_constant_resolution : forall r, (1 < r -> NewLsf (ConstantResolution r) = Ok (ConstantResolution r)) /\ (r <= 1 -> NewLsf (ConstantResolution r) = Throw INVALID_LSF).
Proof. exact New_res. Qed.
Print Assumptions C58_constant_resolution.
Theorem C58_variable_width : forall ax ws,
  (ws = [] \/ length ax <> length ws -> NewLsf (VariableWidth ax ws) = Throw BAD_COUNTMATCH) /\
  (ws <> [] -> length ax = length ws -> (exists w, In w ws /\ w <= 0) -> NewLsf (VariableWidth ax ws) = Throw INVALID_LSF) /\
  (ws <> [] -> length ax = length ws -> Forall (fun w => 0 < w) ws -> NewLsf (VariableWidth ax ws) = Ok (VariableWidth ax ws)).
Proof. exact New_var. Qed.
Print Assumptions C58_variable_width.
(** ** an accepted LSF has a positive width at every wavelength (clipped to its range) *)
Theorem C58_width_positive : forall sqrtf, root_ok sqrtf -> forall l lam, NewLsf l = Ok l -> sorted_lsf l -> exists w, GetWidth sqrtf l lam true = Ok w /\ 0 < w.
Proof. exact Width_clip_pos. Qed.
Print Assumptions C58_width_positive.
(** clipping is the width at the nearest wavelength of the range *)
Theorem C58_clip : forall sqrtf l lam, GetWidth sqrtf l lam true = GetWidth sqrtf l (Clamp (getSpectralRange l) lam) false /\
  (rbeg (getSpectralRange l) <= lam <= rend (getSpectralRange l) -> GetWidth sqrtf l lam true = GetWidth sqrtf l lam false).
Proof. intros f l lam. split; [exact (Width_clip f l lam)|exact (Width_clip_in f l lam)]. Qed.
Print Assumptions C58_clip.
(** ** a variable width: linear interpolation inside, refused outside *)
Theorem C58_interpolated : forall sqrtf ax ws a b lam, NewLsf (VariableWidth ax ws) = Ok (VariableWidth ax ws) -> increasing ax -> ends ax a b -> a <= lam <= b ->
  exists r, GetWidth sqrtf (VariableWidth ax ws) lam false = Ok r /\ 0 < r /\
    ((exists i x, nth_error ax i = Some x /\ nth_error ws i = Some r /\ x == lam) \/
     (exists i x y w v, nth_error ax i = Some x /\ nth_error ax (S i) = Some y /\ nth_error ws i = Some w /\ nth_error ws (S i) = Some v /\
        on_segment x w y v lam r)).
Proof. exact Width_var_in. Qed.
Print Assumptions C58_interpolated.
Theorem C58_outside : forall sqrtf ax ws a b lam, NewLsf (VariableWidth ax ws) = Ok (VariableWidth ax ws) -> ends ax a b -> lam < a \/ b < lam ->
  GetWidth sqrtf (VariableWidth ax ws) lam false = Throw INSUFFICIENT_LSF_COVERAGE.
Proof. exact Width_var_out. Qed.
Print Assumptions C58_outside.
Theorem C58_available : forall ax ws a b, IsValid (VariableWidth ax ws) = Ok true -> ends ax a b -> forall lam,
  exists v, checkAvailability (VariableWidth ax ws) lam = Ok v /\ (v = true <-> a <= lam <= b).
Proof. exact avail_var. Qed.
Print Assumptions C58_available.
(** the wavelengths need not be sorted to be accepted; nothing is available then *)
Theorem C58_unsorted_refuted : forall sqrtf, exists l, NewLsf l = Ok l /\ forall lam clip, GetWidth sqrtf l lam clip = Throw INSUFFICIENT_LSF_COVERAGE.
Proof. exact Unsorted_no_width. Qed.
Print Assumptions C58_unsorted_refuted.
(** ** constant resolution: R = lambda / FWHM, FWHM = 2.355 sigma *)
Theorem C58_resolution : forall sqrtf r lam, 1 < r -> 0 < lam ->
  exists w, GetWidth sqrtf (ConstantResolution r) lam false = Ok w /\ computeResolution lam w == r /\ w * (2355#1000) * r == lam.
Proof. exact Resolution. Qed.
Print Assumptions C58_resolution.
(** ** the convolution kernel: positive, sum 1, proportional to the profile *)
Theorem C58_kernel : forall sqrtf prof, root_ok sqrtf -> (forall x y s, 0 < s -> 0 < prof x y s) -> forall l lams lam0, NewLsf l = Ok l -> sorted_lsf l -> lams <> [] ->
  exists w k, GetWidth sqrtf l lam0 true = Ok w /\ getNormalizedProfileVector sqrtf prof l lams lam0 = Ok k /\ length k = length lams /\
    Forall (fun x => 0 < x) k /\ qsum k == 1 /\
    forall i j x y p q, nth_error lams i = Some x -> nth_error lams j = Some y -> nth_error k i = Some p -> nth_error k j = Some q ->
      p * prof y lam0 w == q * prof x lam0 w.
Proof. exact Kernel. Qed.
Print Assumptions C58_kernel.
(** ** the factory: the five names; another one is refused, arguments of another kind are not *)
Theorem C58_factory : forall name a,
  (~ In name ["gaussianConstantWidth"; "gaussianConstantResolution"; "gaussianNISPSIM2016"; "gaussianNISPVSSPSF201707"; "gaussianVariableWidth"]%string -> Create name a = Throw STD_out_of_range) /\
  (forall w, Create "gaussianConstantWidth" (ConstWidthArgs w) = NewLsf (ConstantWidth w)) /\ (forall r, Create "gaussianConstantResolution" (ConstResArgs r) = NewLsf (ConstantResolution r)) /\
  Create "gaussianNISPSIM2016" a = NewLsf NispSim2016 /\ (forall s, Create "gaussianNISPVSSPSF201707" (NispVssArgs s) = NewLsf (NispVssPsf201707 s)) /\
  (forall ax ws, Create "gaussianVariableWidth" (VarWidthArgs ax ws) = NewLsf (VariableWidth ax ws)).
Proof. intros name a. split; [exact (Create_unknown name a)|repeat split]. Qed.
Print Assumptions C58_factory.
Theorem C58_factory_arguments_refuted : Create "gaussianConstantWidth" NullArgs = UB /\ (forall r, Create "gaussianConstantWidth" (ConstResArgs r) = UB).
Proof. split; reflexivity. Qed.
Print Assumptions C58_factory_arguments_refuted.

(** ** the hypotheses are met *)
(** ** the widths of the NISP models, and the profile at a wavelength of a line: of the width at its centre *)
Theorem C58_nisp : forall sqrtf lam src, (exists w, GetWidth sqrtf NispSim2016 lam false = Ok w /\ w * (235#100) == (8121#10000000) * lam + (74248#10000)) /\
  (exists v, GetWidth sqrtf (NispVssPsf201707 src) lam false = Ok (sqrtf v) /\ v == ((3939#10000000) * lam + (2191#1000)) * ((3939#10000000) * lam + (2191#1000)) + (src * (134#10) / (355#1000)) * (src * (134#10) / (355#1000))).
Proof. exact Nisp. Qed.
Print Assumptions C58_nisp.
Theorem C58_profile_value : forall sqrtf prof l lam lam0, (forall w, GetWidth sqrtf l lam0 false = Ok w -> GetProfileVal sqrtf prof l lam lam0 = Ok (prof lam lam0 w)) /\
  (forall e, GetWidth sqrtf l lam0 false = Throw e -> GetProfileVal sqrtf prof l lam lam0 = Throw e).
Proof. exact Profile_val. Qed.
Print Assumptions C58_profile_value.
Example c58_root : root_ok (fun x => x). Proof. intros x H; exact H. Qed.
Example c58_var : NewLsf (VariableWidth [1000; 2000; 3000] [1; 3; 4]) = Ok (VariableWidth [1000; 2000; 3000] [1; 3; 4]). Proof. reflexivity. Qed.
Example c58_var_sorted : sorted_lsf (VariableWidth [1000; 2000; 3000] [1; 3; 4]).
Proof. intros i j x y H Hx Hy. destruct i as [|[|[|i]]], j as [|[|[|j]]]; cbn in Hx, Hy; try lia; inversion Hx; inversion Hy; subst; lra || (destruct i; discriminate) || (destruct j; discriminate). Qed.
Example c58_var_ends : ends [1000; 2000; 3000] 1000 3000. Proof. split; reflexivity. Qed.
Example c58_var_mid : exists r, GetWidth (fun x => x) (VariableWidth [1000; 2000; 3000] [1; 3; 4]) 1500 false = Ok r /\ r == 2. Proof. eexists. split; reflexivity. Qed.
Example c58_kern : exists k, getNormalizedProfileVector (fun x => x) (fun x y s => s / (1 + (x - y) * (x - y))) (ConstantWidth 2) [4; 5; 6] 5 = Ok k /\ map Qred k = [1#4; 1#2; 1#4].
Proof. eexists. split; reflexivity. Qed.
