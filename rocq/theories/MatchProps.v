(** C71: the matching of detected lines with the catalog.
    [matches] is the list of solutions of Compute (C71_compute), before the null pointer stands for an empty one. *)
From Coq Require Import String.
From Verif Require Import Base SortLib MatchModel MatchSpec MatchProofs MatchProofs2.
Open Scope Q_scope.

(** the answer: the solutions for the lines of the type and strength asked; none: the null pointer *)
Theorem C71_compute : forall dcat rcat lo hi thr tol ty dfo rfo,
  Compute dcat rcat lo hi thr tol ty dfo rfo = match matches tol (filter_det ty dfo dcat) (filter_rest ty rfo rcat) lo hi thr with [] => None | l => Some l end /\
  (forall d, In d (filter_det ty dfo dcat) <-> In d dcat /\ (forall b, ty = Some b -> d_em d = b) /\ (forall b, dfo = Some b -> d_strong d = b)) /\
  (forall r, In r (filter_rest ty rfo rcat) <-> In r rcat /\ (forall b, ty = Some b -> r_em r = b) /\ (forall b, rfo = Some b -> r_strong r = b)).
Proof. exact Compute_answer. Qed.
Print Assumptions C71_compute.
(** a solution: pairs of a detected line and a rest line seen there at the redshift of the pair, none negative, in order of position without a position twice; as many as asked;
    the mean redshift inside the range; and every redshift agrees with that of one of the pairs *)
Theorem C71_sound : forall tol ds rs lo hi thr s, positive_rest rs -> In s (matches tol ds rs lo hi thr) ->
  s <> [] /\ by_position s /\ (forall x, In x s -> In (s_d x) ds /\ In (s_r x) rs /\ at_redshift (s_d x) (s_r x) (s_z x) /\ 0 <= s_z x) /\ (0 <= thr <= Z.of_nat (List.length s))%Z /\ lo < mean_redshift s < hi /\
  exists x0, In x0 s /\ forall x, In x s -> x = x0 \/ agree tol (s_z x0) (s_z x).
Proof. exact Sound. Qed.
Print Assumptions C71_sound.
(** with distinct positions and identifiers the solutions are exactly the groups of the pairs: each pair with the first partner of every other detected line *)
Theorem C71_groups : forall tol ds rs, positive_rest rs -> distinct_positions ds -> NoDup (map r_id rs) -> forall lo hi thr s, In s (matches tol ds rs lo hi thr) ->
  exists d r, In d ds /\ In r rs /\ 0 <= z_of d r /\ Permutation (pairs_of s) (group tol ds rs d r).
Proof. exact Exact_sound. Qed.
Print Assumptions C71_groups.
Theorem C71_complete : forall tol ds rs, positive_rest rs -> distinct_positions ds -> NoDup (map r_id rs) -> forall lo hi thr d r, In d ds -> In r rs -> 0 <= z_of d r ->
  (0 <= thr <= Z.of_nat (List.length (group tol ds rs d r)))%Z -> lo < mean_of (group tol ds rs d r) < hi ->
  exists s, In s (matches tol ds rs lo hi thr) /\ Permutation (pairs_of s) (group tol ds rs d r).
Proof. exact Exact_complete. Qed.
Print Assumptions C71_complete.
(** and none twice *)
Theorem C71_unique : forall tol ds rs, positive_rest rs -> distinct_positions ds -> NoDup (map r_id rs) -> forall lo hi thr, NoDup (map pairs_of (matches tol ds rs lo hi thr)).
Proof. exact Exact_unique_all. Qed.
Print Assumptions C71_unique.

(** ** queries on the solutions *)
Theorem C71_over_number : forall l k s, (0 <= k)%Z -> (In s (GetSolutionsListOverNumber l k) <-> In s l /\ (k < Z.of_nat (List.length s))%Z).
Proof. intros l k s H. rewrite Over. split; intros (A & B); (split; [exact A|lia]). Qed.
Print Assumptions C71_over_number.
(** the best redshift: the mean of the first solution of at least two lines which has the most strong lines, then the most lines; none without such a solution *)
Theorem C71_best : forall rcat l, let two := filter (fun s => Nat.leb 2 (List.length s)) l in
  (two = [] -> GetBestRedshift rcat l = None) /\
  (two <> [] -> exists z n pre s post, GetBestRedshift rcat l = Some (z, n) /\ two = (pre ++ s :: post)%list /\ z == mean_redshift s /\ n = List.length s /\ (forall x, In x pre -> better rcat s x) /\ (forall x, In x post -> ~ better rcat x s)).
Proof. exact Best. Qed.
Print Assumptions C71_best.
Theorem C71_best_number : forall l, (forall s, In s l -> s <> []) -> (l = [] -> GetBestMatchNumRedshift l = ((-1)%Z, None)) /\
  (l <> [] -> exists n z pre s post, GetBestMatchNumRedshift l = (Z.of_nat n, Some z) /\ l = (pre ++ s :: post)%list /\ n = List.length s /\ z == mean_redshift s /\ (forall x, In x pre -> (List.length x < n)%nat) /\ (forall x, In x l -> (List.length x <= n)%nat)).
Proof. exact Best_number. Qed.
Print Assumptions C71_best_number.
(** the mean redshifts rounded to the nearest multiple of the step *)
Theorem C71_rounded : forall l k step, 0 < step -> (forall s, In s l -> 0 <= mean_redshift s) -> List.length (GetRoundedRedshiftCandidatesOverNumber l k step) = List.length (GetSolutionsListOverNumber l k) /\
  forall i s, nth_error (GetSolutionsListOverNumber l k) i = Some s -> exists v m, nth_error (GetRoundedRedshiftCandidatesOverNumber l k step) i = Some v /\ v == inject_Z m * step /\ Qabs (v - mean_redshift s) <= step / 2.
Proof. exact Rounded. Qed.
Print Assumptions C71_rounded.
(** and extended: in strictly increasing order, exactly the rounded ones moved by steps in [-h, h) *)
Theorem C71_extended : forall l k step width, 0 < step -> 0 <= width -> let out := GetExtendedRedshiftCandidatesOverNumber l k step width in exists h, (inject_Z h <= width / step / 2 < inject_Z h + 1) /\ strictly_increasing out /\
  (forall v, (exists y, In y out /\ y == v) <-> exists c i, In c (GetRoundedRedshiftCandidatesOverNumber l k step) /\ (- h <= i < h)%Z /\ v == c + inject_Z i * step).
Proof. exact Extended. Qed.
Print Assumptions C71_extended.
Theorem C71_by_index : forall l i, l <> [] ->
  (forall s, (0 <= i)%Z -> nth_error l (Z.to_nat i) = Some s -> exists z, GetMeanRedshiftSolutionByIndex l i = Ok z /\ z == mean_redshift s) /\
  ((i < 0 \/ Z.of_nat (List.length l) <= i)%Z -> exists z, GetMeanRedshiftSolutionByIndex l i = Ok z /\ z == -1).
Proof. intros l i H. destruct (By_index l i) as (_ & A & B). split; [exact (A H)|exact (B H)]. Qed.
Print Assumptions C71_by_index.
(** the filter: the solutions with a null code are kept, in order; the others are added to the removed ones with their codes; nothing is lost *)
Theorem C71_filter : forall check l removed codes, FilterWithRules check l removed codes =
  (filter (fun s => Z.leb (check (mean_z s) s) 0) l, (removed ++ filter (fun s => negb (Z.leb (check (mean_z s) s) 0)) l)%list, (codes ++ map (fun s => check (mean_z s) s) (filter (fun s => negb (Z.leb (check (mean_z s) s) 0)) l))%list).
Proof. exact Filter. Qed.
Print Assumptions C71_filter.

(** * a concrete case: Hbeta and Halpha (rounded) at redshift one, a third line elsewhere *)
Definition hb : rest := mkRest 0 5 "Hbeta" true true.
Definition ha : rest := mkRest 1 7 "Halpha" true true.
Definition wk : rest := mkRest 2 9 "weak" true false.
Definition d1 : det := mkDet 0 10 1 true true.
Definition d2 : det := mkDet 1 14 2 true true.
Definition d3 : det := mkDet 2 33 1 true false.
Example C71_ex_hypotheses : positive_rest [hb; ha; wk] /\ distinct_positions [d1; d2; d3] /\ NoDup (map r_id [hb; ha; wk]).
Proof.
  split; [intros r [<-|[<-|[<-|[]]]]; reflexivity|]. split; [|cbn; repeat constructor; cbn; intuition discriminate].
  repeat constructor; cbn; intros E; discriminate.
Qed.
Example C71_ex_matches : map pairs_of (matches (1 # 100) [d1; d2; d3] [hb; ha; wk] 0 6 2) = [[(d1, hb); (d2, ha)]].
Proof. vm_compute. reflexivity. Qed.
Example C71_ex_singles : List.length (matches (1 # 100) [d1; d2; d3] [hb; ha; wk] 0 6 1) = 8%nat /\ z_of d1 hb == 1 /\ mean_of (group (1 # 100) [d1; d2; d3] [hb; ha; wk] d1 hb) == 1.
Proof. split; [vm_compute; reflexivity|]. split; vm_compute; reflexivity. Qed.
Definition ex_l : list (list sol) := matches (1 # 100) [d1; d2; d3] [hb; ha; wk] 0 6 1.
Example C71_ex_best : match GetBestRedshift [hb; ha; wk] ex_l with Some (z, n) => Qred z = 1 /\ n = 2%nat | None => False end /\ fst (GetBestMatchNumRedshift ex_l) = 2%Z.
Proof. split; [split; vm_compute; reflexivity|vm_compute; reflexivity]. Qed.
Example C71_ex_extended : map Qred (GetExtendedRedshiftCandidatesOverNumber ex_l 1 (1 # 4) (3 # 2)) = [1 # 4; 1 # 2; 3 # 4; 1; 5 # 4; 3 # 2].
Proof. vm_compute. reflexivity. Qed.
Example C71_ex_filter : let '(k, f, c) := FilterWithRules (fun _ s => if Nat.leb 2 (List.length s) then 0%Z else 10%Z) ex_l [] [] in List.length k = 1%nat /\ List.length f = 7%nat /\ c = repeat 10%Z 7.
Proof. vm_compute. auto. Qed.

(** ** what does not hold *)
(** the redshifts of a solution agree with that of its first pair, not with each other *)
Theorem C71_pairwise_refuted : exists tol ds rs lo hi thr s x y, positive_rest rs /\ distinct_positions ds /\ In s (matches tol ds rs lo hi thr) /\ In x s /\ In y s /\ ~ agree tol (s_z x) (s_z y).
Proof.
  exists (1 # 10), [mkDet 0 20 1 true true; mkDet 1 (109 # 5) 1 true true; mkDet 2 (91 # 5) 1 true true], [mkRest 0 10 "a" true true; mkRest 1 1000 "b" true true], 0, 9, 3%Z. do 3 eexists.
  split; [intros r [<-|[<-|[]]]; reflexivity|]. split; [repeat constructor; cbn; intros E; discriminate|]. split; [vm_compute; left; reflexivity|]. split; [left; reflexivity|]. split; [right; right; left; reflexivity|]. vm_compute. intros H; apply H; reflexivity.
Qed.
Print Assumptions C71_pairwise_refuted.
(** one line of the catalog can be matched with two detected lines of the same solution *)
Theorem C71_rest_once_refuted : exists tol ds rs lo hi thr s, positive_rest rs /\ distinct_positions ds /\ In s (matches tol ds rs lo hi thr) /\ ~ NoDup (map (fun x => r_id (s_r x)) s).
Proof.
  exists (1 # 10), [mkDet 0 20 1 true true; mkDet 1 (101 # 5) 1 true true], [mkRest 0 10 "a" true true; mkRest 1 1000 "b" true true], 0, 9, 2%Z. eexists.
  split; [intros r [<-|[<-|[]]]; reflexivity|]. split; [repeat constructor; cbn; intros E; discriminate|]. split; [vm_compute; left; reflexivity|]. cbn. intros ND. inversion ND as [|? ? N _]. apply N. left. reflexivity.
Qed.
Print Assumptions C71_rest_once_refuted.
(** a detected line is matched with the first line of the catalog within the tolerance, not the nearest *)
Theorem C71_nearest_refuted : exists tol ds rs lo hi thr s x0 x r, positive_rest rs /\ distinct_positions ds /\ matches tol ds rs lo hi thr = [s] /\ In x0 s /\ In x s /\ In r rs /\ s_z x0 == 1 /\ at_redshift (s_d x) r 1 /\ ~ s_z x == 1.
Proof.
  exists (1 # 10), [mkDet 0 20 1 true true; mkDet 1 60 1 true true], [mkRest 0 10 "a" true true; mkRest 1 31 "b" true true; mkRest 2 30 "c" true true], (9 # 10), (99 # 100), 2%Z. do 3 eexists. exists (mkRest 2 30 "c" true true).
  split; [intros r [<-|[<-|[<-|[]]]]; reflexivity|]. split; [repeat constructor; cbn; intros E; discriminate|]. split; [vm_compute; reflexivity|]. split; [left; reflexivity|]. split; [right; left; reflexivity|]. split; [right; right; left; reflexivity|]. split; [reflexivity|]. split; [vm_compute; reflexivity|]. vm_compute. discriminate.
Qed.
Print Assumptions C71_nearest_refuted.
(** with one line in the catalog, detected lines at the same redshift are not put together *)
Theorem C71_one_rest_refuted : exists tol ds r d d', distinct_positions ds /\ In d ds /\ In d' ds /\ d_id d' <> d_id d /\ partner tol (z_of d r) [r] d' = Some r /\ 0 < r_pos r /\ forall s, In s (matches tol ds [r] 0 9 1) -> List.length s = 1%nat.
Proof.
  exists (1 # 10), [mkDet 0 20 1 true true; mkDet 1 (101 # 5) 1 true true], (mkRest 0 10 "a" true true), (mkDet 0 20 1 true true), (mkDet 1 (101 # 5) 1 true true).
  split; [repeat constructor; cbn; intros E; discriminate|]. split; [left; reflexivity|]. split; [right; left; reflexivity|]. split; [discriminate|]. split; [vm_compute; reflexivity|]. split; [reflexivity|]. vm_compute. intros s [<-|[<-|[]]]; reflexivity.
Qed.
Print Assumptions C71_one_rest_refuted.
(** a negative number of lines selects nothing instead of everything *)
Theorem C71_negative_number_refuted : forall l k, (k < 0)%Z -> GetSolutionsListOverNumber l k = [].
Proof. exact Over_negative. Qed.
Print Assumptions C71_negative_number_refuted.
(** the mean redshift by index of an empty list reads outside of it *)
Theorem C71_by_index_refuted : forall i, GetMeanRedshiftSolutionByIndex [] i = UB.
Proof. intros i. reflexivity. Qed.
Print Assumptions C71_by_index_refuted.
(** the extended redshifts are not around: the upper end is missing, and a range of less than two steps gives none, not even the redshift of the solution *)
Theorem C71_extended_refuted : exists l step width, 0 < step /\ 0 < width /\ GetRoundedRedshiftCandidatesOverNumber l 1 step <> [] /\ GetExtendedRedshiftCandidatesOverNumber l 1 step width = [].
Proof. exists ex_l, (1 # 4), (1 # 3). split; [reflexivity|]. split; [reflexivity|]. split; vm_compute; [discriminate|reflexivity]. Qed.
Print Assumptions C71_extended_refuted.
