(** C68: the elements of the line model: which are fitted, which are fitted together, and what is said of the whole model. *)
From Coq Require Import String.
From Verif Require Import Base SortLib AxisModel ElemModel EfitModel EfitProofs ElistModel ElistSpec ElistProofs ElistProofs2 ElistProofs3.
Open Scope Q_scope.

(** the elements listed are those in the range which are not disabled, each once, in order *)
Theorem C68_valid : forall disabled es, increasing_nat (GetModelValidElementsIndexes disabled es) /\ forall i, In i (GetModelValidElementsIndexes disabled es) <-> valid disabled es i.
Proof. exact Valid. Qed.
Print Assumptions C68_valid.
(** disabling automatically adds the elements in the range of which no line has a positive amplitude *)
Theorem C68_disable : forall es dis i, In i (SetElementIndexesDisabledAuto es dis) <-> In i dis \/ exists e, nth_error es i = Some e /\ b_out e = false /\ forall l a, In l (b_lines e) -> h_amp l = Some a -> a <= 0.
Proof. exact Disable. Qed.
Print Assumptions C68_disable.
(** the elements overlapping an element: itself, and those of the same type, in the range, not excluded, a window of which shares more than the given part of one of its windows *)
Theorem C68_overlap : forall es ind excl z thres, (ind < List.length es)%nat -> exists g, getOverlappingElements es ind excl z thres = Ok g /\ increasing_nat g /\
  forall k, In k g <-> k = ind \/ (exists a, nth_error es ind = Some a /\ b_out a = false) /\ k <> ind /\ ~ In k excl /\ joined es z thres ind k.
Proof. exact Overlapping. Qed.
Print Assumptions C68_overlap.
(** the hybrid fit never fails to group: every valid element is in a group, no element is fitted twice, each group begins from a valid element and has the elements not
    yet fitted which overlap it by more than 15% of its window *)
Theorem C68_hybrid : forall es dis z, exists gs, hybrid_groups es dis z = Ok gs /\
  (forall i, valid dis es i -> In i (flat_map snd gs)) /\ NoDup (flat_map snd gs) /\
  (forall i g, In (i, g) gs -> valid dis es i /\ In i g) /\
  forall pre i g post, gs = (pre ++ (i, g) :: post)%list -> increasing_nat g /\
    forall k, In k g <-> k = i \/ (k <> i /\ ~ In k (flat_map snd pre) /\ joined es z (15 # 100) i k).
Proof. exact Hybrid. Qed.
Print Assumptions C68_hybrid.
(** the groups of the velocity fit: one for each tag of the lines of the type in the valid elements, in the order of the tags *)
Theorem C68_velocity_groups : forall dis es em, exists m, GetModelVelfitGroups dis es em = Ok (map snd m) /\ grouped (velfit_pairs es em (GetModelValidElementsIndexes dis es)) m.
Proof. exact Velfit. Qed.
Print Assumptions C68_velocity_groups.
(** the fitting groups: one for each name of the elements of the type, in the order of the names *)
Theorem C68_fitting_groups : forall es flt idx, (forall i, In i idx -> (i < List.length es)%nat) -> exists m, getFittingGroups es idx flt = Ok m /\
  grouped (fitting_pairs es flt (match idx with [] => seq 0 (List.length es) | _ => idx end)) m.
Proof. exact Fitting. Qed.
Print Assumptions C68_fitting_groups.
(** the samples under the elements: each once, increasing, those of the supports of the elements in the range *)
Theorem C68_support : forall es idx, (forall i, In i idx -> (i < List.length es)%nat) -> exists l, getSupportIndexes es idx = Ok l /\ increasing_Z l /\ forall t, In t l <-> supported es idx t.
Proof. exact Support_indexes. Qed.
Print Assumptions C68_support.
(** the amplitude offset: to each sample under a group is added, once, the polynomial of the first element of the first group over it; the others do not change *)
Theorem C68_amplitude_offset : forall es axis flux idx flt, List.length flux = List.length axis ->
  (forall e p t, In e es -> In p (b_supp e) -> (fst p <= t <= snd p)%Z -> (0 <= t < Z.of_nat (List.length axis))%Z) ->
  (forall i, In i idx -> (i < List.length es)%nat) ->
  exists gs flux', getFittingGroups es idx flt = Ok gs /\ addToSpectrumAmplitudeOffset es axis flux idx flt = Ok flux' /\ List.length flux' = List.length flux /\
    forall t v x, nth_error flux t = Some v -> nth_error axis t = Some x -> exists v', nth_error flux' t = Some v' /\
      ((forall g, In g gs -> ~ supported es (snd g) (Z.of_nat t)) -> v' == v) /\
      (forall g i r e, first_group es gs (Z.of_nat t) g -> snd g = i :: r -> nth_error es i = Some e -> v' == v + b_poly e x).
Proof. exact Amplitude_offset. Qed.
Print Assumptions C68_amplitude_offset.
(** the elements with a positive amplitude, of a type or of both *)
Theorem C68_nonzero : forall dis es flt, exists l, getValidElementIndices dis es flt = Ok l /\ increasing_nat l /\
  forall i, In i l <-> valid dis es i /\ exists e a, nth_error es i = Some e /\ b_amp e = Some a /\ 0 < a /\ match flt with None => True | Some b => b_em e = b end.
Proof. exact Nonzero. Qed.
Print Assumptions C68_nonzero.
(** a strong emission line is present exactly when an emission line of a valid element flagged strong has a positive amplitude *)
Theorem C68_strong_line : forall dis es, exists b, GetModelStrongEmissionLinePresent dis es = Ok b /\ (b = true <-> exists l a, bright dis es l a /\ h_strong l = true).
Proof. exact Strong. Qed.
Print Assumptions C68_strong_line.
(** H alpha is said the strongest only if no emission line is brighter, and always if it is brighter than all the others *)
Theorem C68_ha_strongest : forall dis es, exists b, GetModelHaStrongest dis es = Ok b /\
  (b = true -> exists l m, bright dis es l m /\ h_name l = "Halpha"%string /\ forall l' a, bright dis es l' a -> a <= m) /\
  (forall l m, bright dis es l m -> h_name l = "Halpha"%string -> (forall l' a, bright dis es l' a -> h_name l' <> "Halpha"%string -> a < m) -> b = true).
Proof. exact Ha. Qed.
Print Assumptions C68_ha_strongest.
(** the correction of the marginalisation is the sum of the logarithms of the positive sums of the elements in the range *)
Theorem C68_marginalisation : forall logf es, (exists q, getScaleMargCorrection logf es None = Ok q /\ q == log_sum logf es) /\
  forall i e, nth_error es i = Some e -> exists q, getScaleMargCorrection logf es (Some i) = Ok q /\ q == log_sum logf [e].
Proof. exact Marg. Qed.
Print Assumptions C68_marginalisation.
(** the amplitude of an element; -1 for an index which is not one *)
Theorem C68_amplitude : forall es j, (forall e, (0 <= j)%Z -> nth_error es (Z.to_nat j) = Some e -> GetElementAmplitude es j = b_amp e) /\
  ((j < 0)%Z \/ (Z.of_nat (List.length es) <= j)%Z -> GetElementAmplitude es j = Some (-1)).
Proof. exact Amplitude. Qed.
Print Assumptions C68_amplitude.
(** searching a line finds the first element which has a line of the identifier, and such a line in it *)
Theorem C68_find : forall id es, match findElementIndex id 0 es with
  | Some (k, j) => (exists e l, nth_error es k = Some e /\ nth_error (b_lines e) j = Some l /\ h_id l = id) /\ forall m e l, (m < k)%nat -> nth_error es m = Some e -> In l (b_lines e) -> h_id l <> id
  | None => forall e l, In e es -> In l (b_lines e) -> h_id l <> id end.
Proof. exact Find. Qed.
Print Assumptions C68_find.
(** the degrees of freedom: the elements, and the elements with a positive amplitude *)
Theorem C68_dof : forall out es, List.length out = List.length es -> GetModelNonZeroElementsNDdl out es =
  List.length (filter (fun oe => negb (fst oe) && existsb (fun l => positive (h_amp l)) (b_lines (snd oe))) (combine out es)).
Proof. exact Ndof. Qed.
Print Assumptions C68_dof.
(** loading one element for each line, or one for the absorption lines and one for the emission lines, keeps each line once, and an element has lines of one type *)
Theorem C68_load : forall lines, (forall g l l', In g (LoadCatalogTwoMultilinesAE lines) -> In l g -> In l' g -> h_em l = h_em l') /\ (forall g, In g (LoadCatalogTwoMultilinesAE lines) -> g <> []) /\
  Permutation lines (concat (LoadCatalogTwoMultilinesAE lines)) /\ Permutation lines (concat (LoadCatalogOneLineByElement lines)) /\ (forall g, In g (LoadCatalogOneLineByElement lines) -> List.length g = 1%nat).
Proof. exact Load. Qed.
Print Assumptions C68_load.

(** ** what goes wrong *)
Definition hl (p : Q) (name : string) (vel : option string) (a : Q) : hline := mkH p 4 false true vel name true name (Some a) 0.
Definition he (ls : list hline) (w : Q) (supp : list (Z * Z)) (g : option string) (poly : Q) : hel := mkHel false true ls (fun _ => w) supp (Some 1) g (fun _ => poly) (Some 1).
(** an element with two lines of the same velocity group is twice in the group: the removal of the duplicates is done on a copy *)
Definition doublet : list hel := [he [hl 10 "a" (Some "v"%string) 1; hl 20 "b" (Some "v"%string) 1] 1 [] None 0].
Theorem C68_velocity_duplicates_refuted : GetModelVelfitGroups [] doublet true = Ok [[0; 0]%nat].
Proof. reflexivity. Qed.
Print Assumptions C68_velocity_duplicates_refuted.
(** a disabled element is fitted with an element it overlaps *)
Definition near : list hel := [he [hl 10 "a" None 1] 1 [] None 0; he [hl 11 "b" None 1] 1 [] None 0].
Theorem C68_disabled_fitted_refuted : ~ valid [1%nat] near 1 /\ hybrid_groups near [1%nat] 0 = Ok [(0, [0; 1])]%nat.
Proof. split; [intros (e & _ & _ & H); apply H; left; reflexivity|reflexivity]. Qed.
Print Assumptions C68_disabled_fitted_refuted.
(** overlapping elements are not always fitted together: the third overlaps the second, which is fitted with the first *)
Definition chain : list hel := [he [hl 10 "a" None 1] 1 [] None 0; he [hl 12 "b" None 1] 1 [] None 0; he [hl 14 "c" None 1] 1 [] None 0].
Theorem C68_chain_refuted : joined chain 0 (15 # 100) 1 2 /\ hybrid_groups chain [] 0 = Ok [(0, [0; 1]); (2, [2])]%nat.
Proof.
  split; [|reflexivity]. exists (he [hl 12 "b" None 1] 1 [] None 0), (he [hl 14 "c" None 1] 1 [] None 0). split; [reflexivity|]. split; [reflexivity|]. split; [reflexivity|]. split; [reflexivity|].
  exists (hl 12 "b" None 1), (hl 14 "c" None 1). split; [left; reflexivity|]. split; [left; reflexivity|]. split; [reflexivity|]. split; [reflexivity|]. vm_compute. reflexivity.
Qed.
Print Assumptions C68_chain_refuted.
(** the overlap is not symmetric: a narrow line inside of a wide one overlaps it, not the reverse *)
Definition wide_narrow : list hel := [he [hl 10 "a" None 1] 10 [] None 0; he [hl 10 "b" None 1] 1 [] None 0].
Theorem C68_asymmetric_refuted : getOverlappingElements wide_narrow 0 [] 0 (15 # 100) = Ok [0]%nat /\ getOverlappingElements wide_narrow 1 [] 0 (15 # 100) = Ok [0; 1]%nat.
Proof. split; reflexivity. Qed.
Print Assumptions C68_asymmetric_refuted.
(** asking for the offset of no element draws that of all *)
Theorem C68_no_element_refuted : exists flux', addToSpectrumAmplitudeOffset [he [hl 1 "a" None 1] 1 [(1, 2)%Z] (Some "g"%string) 5] [0; 1; 2; 3] [0; 0; 0; 0] [] None = Ok flux' /\ map Qred flux' = [0; 5; 5; 0].
Proof. eexists. split; reflexivity. Qed.
Print Assumptions C68_no_element_refuted.
(** the lines of H alpha and of another line equally bright: the first decides *)
Theorem C68_ha_tie_refuted : GetModelHaStrongest [] [he [hl 10 "Halpha" None 1; hl 20 "Hbeta" None 1] 1 [] None 0] = Ok true /\
  GetModelHaStrongest [] [he [hl 20 "Hbeta" None 1; hl 10 "Halpha" None 1] 1 [] None 0] = Ok false.
Proof. split; reflexivity. Qed.
Print Assumptions C68_ha_tie_refuted.

(** ** non-vacuity: two groups under which the offsets are drawn *)
Definition two_groups : list hel := [he [hl 1 "a" None 1] 1 [(0, 1)%Z] (Some "g"%string) 5; he [hl 2 "b" None 2] 1 [(1, 2)%Z] (Some "f"%string) 7; he [hl 30 "c" None 3] 1 [(3, 3)%Z] None 9].
Example C68_case : (forall e p t, In e two_groups -> In p (b_supp e) -> (fst p <= t <= snd p)%Z -> (0 <= t < Z.of_nat (List.length [0; 1; 2; 3]))%Z) /\
  getFittingGroups two_groups [] None = Ok [("f"%string, [1%nat]); ("g"%string, [0%nat])] /\
  (exists flux', addToSpectrumAmplitudeOffset two_groups [0; 1; 2; 3] [1; 1; 1; 1] [] None = Ok flux' /\ map Qred flux' = [6; 8; 8; 1]) /\
  hybrid_groups two_groups [] 0 = Ok [(0, [0; 1]); (2, [2])]%nat /\ GetModelStrongEmissionLinePresent [] two_groups = Ok true.
Proof.
  split; [|split; [reflexivity|split; [eexists; split; reflexivity|split; reflexivity]]].
  intros e p t I P T. cbn in I. destruct I as [<-|[<-|[<-|[]]]]; cbn in P; destruct P as [<-|[]]; cbn in *; lia.
Qed.
