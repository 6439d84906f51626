(** Redshift candidates of a pdf: properties C29 and C30. *)
From Coq Require Import String.
From Verif Require Import Base RangeModel SortLib CandModel CandSpec CandProofs.
Open Scope string_scope.
Open Scope Q_scope.

(** ** C29: integration ranges *)
Theorem C29_integration_ranges : forall keysort dz pdf cs,
  sorts_by_z keysort -> cs <> [] -> (forall c, In c cs -> usable dz pdf c) ->
  exists out dups, SetIntegrationRanges keysort dz pdf cs = Ok (out, dups) /\
    map fst out = keysort (map (fix_dz dz) cs) /\
    (forall c r, In (c, r) out -> window_begin pdf c <= rbeg r /\ rbeg r <= cz c /\ cz c <= rend r /\ rend r <= window_end pdf c) /\
    (forall i j x y, (i < j)%nat -> nth_error out i = Some x -> nth_error out j = Some y ->
       (forall k z, (i <= k <= j)%nat -> nth_error out k = Some z -> kept dups (fst z)) ->
       rend (snd y) <= rbeg (snd x)) /\
    (forall id, In id dups -> dup_reason pdf out id) /\
    ((forall i x y, nth_error out i = Some x -> nth_error out (S i) = Some y ->
        window_end pdf (fst y) <= window_begin pdf (fst x)) ->
     dups = [] /\ forall c r, In (c, r) out -> rbeg r == window_begin pdf c /\ rend r == window_end pdf c).
Proof. exact ranges_spec. Qed.
Print Assumptions C29_integration_ranges.

(** the overlap is shared equally by two neighbours when it is under 30 % of both widths, otherwise one is a duplicate *)
Theorem C29_two_candidates : forall keysort dz pdf h l, sorts_by_z keysort ->
  usable dz pdf h -> usable dz pdf l -> 0 < cdz h -> 0 < cdz l -> cz l < cz h ->
  let ov := window_end pdf l - window_begin pdf h in
  let wh := window_end pdf h - window_begin pdf h in let wl := window_end pdf l - window_begin pdf l in
  exists rh rl dups, SetIntegrationRanges keysort dz pdf [h; l] = Ok ([(h, rh); (l, rl)], dups) /\
    rend rh == window_end pdf h /\ rbeg rl == window_begin pdf l /\
    ((ov <= 0 /\ dups = [] /\ rbeg rh == window_begin pdf h /\ rend rl == window_end pdf l) \/
     (0 < ov /\ ov < (3 # 10) * wh /\ ov < (3 # 10) * wl /\ dups = [] /\
      rbeg rh == (window_begin pdf h + window_end pdf l) / 2 /\ rend rl == rbeg rh) \/
     (0 < ov /\ ((3 # 10) * wh <= ov \/ (3 # 10) * wl <= ov) /\
      rbeg rh == window_begin pdf h /\ rend rl == window_end pdf l /\
      ((cval h < cval l /\ dups = [cid h]) \/ (cval l <= cval h /\ dups = [cid l])))).
Proof. exact two_candidates. Qed.
Print Assumptions C29_two_candidates.

Definition byz (l : list cand) : list cand := isort (fun a b => Qltb (cz b) (cz a)) l.
Example C29_byz : sorts_by_z byz.
Proof. exact isort_by_z. Qed.
Definition pdf100 := mkRange 0 100.
Example C29_case :
  (forall c, In c [mkCand "a" 50 2 3 0; mkCand "b" 61 2 1 0; mkCand "c" 98 2 1 0] -> usable (1 # 1000) pdf100 c) /\
  exists out, SetIntegrationRanges byz (1 # 1000) pdf100 [mkCand "a" 50 2 3 0; mkCand "b" 61 2 1 0; mkCand "c" 98 2 1 0]
    = Ok (out, []) /\ map (fun x => (cid (fst x), Qred (rbeg (snd x)), Qred (rend (snd x)))) out
      = [("c", 92, 100); ("b", 111 # 2, 67); ("a", 44, 111 # 2)].
Proof.
  split; [|eexists; split; vm_compute; reflexivity].
  intros c [<-|[<-|[<-|[]]]]; (split; [|split; [|left]]); reflexivity || discriminate.
Qed.

(** Two kept candidates may overlap, when the one between them is a duplicate *)
Theorem C29_kept_ranges_disjoint_refuted : exists cs out dups x y,
  (forall c, In c cs -> usable (1 # 1000) pdf100 c) /\ SetIntegrationRanges byz (1 # 1000) pdf100 cs = Ok (out, dups) /\
  nth_error out 0 = Some x /\ nth_error out 2 = Some y /\ kept dups (fst x) /\ kept dups (fst y) /\
  rbeg (snd x) < rend (snd y).
Proof.
  exists [mkCand "h" 50 10 3 0; mkCand "m" 40 2 1 0; mkCand "l" 30 2 2 0].
  do 4 eexists. split.
  { intros c [<-|[<-|[<-|[]]]]; (split; [|split; [|left]]); reflexivity || discriminate. }
  split; [vm_compute; reflexivity|]. split; [reflexivity|]. split; [reflexivity|].
  split; [intros [H|[]]; discriminate H|]. split; [intros [H|[]]; discriminate H|]. reflexivity.
Qed.
Print Assumptions C29_kept_ranges_disjoint_refuted.

(** A candidate may be removed although it overlaps no kept candidate: the better neighbour is itself removed *)
Theorem C29_removed_overlaps_a_kept_refuted : exists cs out dups x,
  (forall c, In c cs -> usable (1 # 1000) pdf100 c) /\ SetIntegrationRanges byz (1 # 1000) pdf100 cs = Ok (out, dups) /\
  In x out /\ ~ kept dups (fst x) /\
  forall y, In y out -> kept dups (fst y) -> rend (snd y) < rbeg (snd x).
Proof.
  exists [mkCand "h" 50 2 1 0; mkCand "m" 43 2 2 0; mkCand "l" 36 2 3 0].
  eexists _, ["h"; "m"], _. split.
  { intros c [<-|[<-|[<-|[]]]]; (split; [|split; [|left]]); reflexivity || discriminate. }
  split; [vm_compute; reflexivity|]. split; [left; reflexivity|]. split; [intro H; apply H; left; reflexivity|].
  intros y [<-|[<-|[<-|[]]]] K; [exfalso; apply K; left; reflexivity|exfalso; apply K; right; left; reflexivity|reflexivity].
Qed.
Print Assumptions C29_removed_overlaps_a_kept_refuted.

(** Without any candidate the loop starts past the end of the list *)
Theorem C29_no_candidate_refuted : forall keysort dz pdf, sorts_by_z keysort -> SetIntegrationRanges keysort dz pdf [] = UB.
Proof. exact no_candidate. Qed.
Print Assumptions C29_no_candidate_refuted.

(** ** C30: ranking *)
Theorem C30_rank_order : forall cs,
  Permutation (SortByValSumProbaInt cs) cs /\
  (forall i j a b, (i < j)%nat -> nth_error (SortByValSumProbaInt cs) i = Some a ->
     nth_error (SortByValSumProbaInt cs) j = Some b -> csum b <= csum a) /\
  (forall v, filter (fun c => Qeq_bool (csum c) v) (SortByValSumProbaInt cs) = filter (fun c => Qeq_bool (csum c) v) cs).
Proof. exact rank_spec. Qed.
Print Assumptions C30_rank_order.

Theorem C30_duplicates_last : forall dups sum cs, (forall c, 0 < sum c) ->
  forall i j a b, (i < j)%nat -> nth_error (SortByValSumProbaInt (assign_sums dups sum cs)) i = Some a ->
     nth_error (SortByValSumProbaInt (assign_sums dups sum cs)) j = Some b -> In (cid a) dups -> In (cid b) dups.
Proof. exact duplicates_last. Qed.
Print Assumptions C30_duplicates_last.

Example C30_case :
  map cid (SortByValSumProbaInt [mkCand "a" 1 1 1 (1 # 2); mkCand "b" 2 1 1 (3 # 4); mkCand "c" 3 1 1 (1 # 2); mkCand "d" 4 1 1 0])
  = ["b"; "a"; "c"; "d"] /\
  map cid (SortByValSumProbaInt (assign_sums ["a"] (fun c => cval c / 10) [mkCand "a" 1 1 5 0; mkCand "b" 2 1 1 0; mkCand "c" 3 1 3 0]))
  = ["c"; "b"; "a"].
Proof. split; vm_compute; reflexivity. Qed.
