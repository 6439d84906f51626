(** C91: the reported solution. *)
From Coq Require Import String Sorting.Permutation.
From Verif Require Import Base RangeModel RangeProofs F64 RulesModel LyaModel SolModel SolSpec SolProofs.
Open Scope Q_scope.

Lemma F2_at {A B} (P : A -> B -> Prop) l m i x : Forall2 P l m -> nth_error l i = Some x -> exists y, nth_error m i = Some y /\ P x y.
Proof. intro F. revert i. induction F as [|a b l m H F IH]; intros i N; [destruct i; discriminate|]. destruct i as [|i]; [injection N as <-; exists b; auto|apply IH, N]. Qed.
Lemma at_vals s k i x : st_ok s -> at_line (s_elts s) k i x -> exists e, nth_error (s_elts s) k = Some e /\ nth_error (t_lines e) i = Some x /\ elt_ok e /\ distinct_ids (t_lines e) /\
  outside s k i = Ok (is_out s k i) /\ vget (s_elts s) k = Ok e /\ vget (t_amp e) i = Ok (val (t_amp e) i) /\ vget (t_std e) i = Ok (val (t_std e) i) /\ vget (t_off e) i = Ok (val (t_off e) i).
Proof.
  intros (W & _ & F & _) (e & N & M). destruct (elt_distinct _ e W (nth_error_In _ _ N)) as (O & D). exists e. repeat (split; [assumption|]).
  destruct (F2_at _ _ _ _ _ F N) as (l & Nl & Ll). pose proof (nth_error_len _ _ _ M) as Li. destruct O as (_ & _ & _ & La & Ls & Lo).
  assert (G : forall A (l : list A) d, (i < List.length l)%nat -> vget l i = Ok (nth i l d)). { intros A l' d Lt. apply vget_Ok. apply nth_error_nth'. exact Lt. }
  split; [unfold outside, is_out; rewrite (proj2 (vget_Ok _ _ _) Nl); cbn [rbind]; rewrite (nth_error_nth _ _ [] Nl); apply G; lia|].
  split; [apply vget_Ok, N|]. unfold val. repeat split; apply G; lia.
Qed.
Lemma first_spec_some v k i n : forall p q, first_spec v k i n p = Some q -> (p <= q < p + n)%nat /\ v_outs v q k i = false /\ forall r, (p <= r < q)%nat -> v_outs v r k i = true.
Proof.
  induction n as [|n IH]; intros p q E; [discriminate|]. cbn [first_spec] in E. destruct (v_outs v p k i) eqn:O.
  - destruct (IH (S p) q E) as (L & A & B). split; [lia|]. split; [exact A|]. intros r R. destruct (Nat.eq_dec r p) as [->|Nr]; [exact O|apply B; lia].
  - injection E as <-. split; [lia|]. split; [exact O|intros; lia].
Qed.
Lemma first_spec_none v k i n : forall p, first_spec v k i n p = None -> forall r, (p <= r < p + n)%nat -> v_outs v r k i = true.
Proof.
  induction n as [|n IH]; intros p E r R; [lia|]. cbn [first_spec] in E. destruct (v_outs v p k i) eqn:O; [|discriminate]. destruct (Nat.eq_dec r p) as [->|Nr]; [exact O|apply (IH (S p) E); lia].
Qed.
Lemma seen_spec v k i : match first_spec v k i (v_nspec v) 0 with Some p => seen_in v k i p | None => forall p, ~ seen_in v k i p end.
Proof.
  destruct (first_spec v k i (v_nspec v) 0) as [p|] eqn:F.
  - destruct (first_spec_some _ _ _ _ _ _ F) as (L & A & B). split; [lia|]. split; [exact A|]. intros q Q. apply B. lia.
  - intros p (L & A & _). rewrite (first_spec_none _ _ _ _ _ F p) in A; [discriminate|lia].
Qed.
Lemma nonneg_usable a : nonneg a = true <-> usable a.
Proof.
  unfold nonneg, usable. destruct a as [x|]; [|split; [discriminate|intros (x & E & _); discriminate]]. rewrite Qle_bool_iff. split; [eauto|]. intros (y & E & L). injection E as ->. exact L.
Qed.
Lemma max0_above c : above c (max0 c).
Proof. unfold above, max0. destruct c as [x|]; [|reflexivity]. destruct (Qltb_spec 0 x) as [L|L]; [auto|]. right. split; [lra|reflexivity]. Qed.
Lemma direct_spec v l sub : let (di, snr) := direct v l sub in direct_ok v l sub di (fquo (nabs di) snr) /\
  (snd (v_di v l sub) <= 0 -> di = None /\ snr = None) /\ (0 < snd (v_di v l sub) -> di = Some (fst (v_di v l sub)) /\ snr = Some (Qabs (fst (v_di v l sub)) / v_sqrt v (snd (v_di v l sub)))).
Proof.
  unfold direct, direct_ok. destruct (v_di v l sub) as [f e]. cbn [fst snd]. destruct (Qle_bool e 0) eqn:L.
  - apply Qle_bool_iff in L. repeat split; try reflexivity; intros; exfalso; lra.
  - assert (0 < e). { apply Qnot_le_lt. intro K. apply Qle_bool_iff in K. congruence. } repeat split; try reflexivity; intros; exfalso; lra.
Qed.

(** the accumulators of a complex *)
Definition step (v : env) (full : bool) (named : string -> bool) (n : nat) (s : st) (x : line) (r : row) (a : acc) : acc :=
  if full then match findElementIndex (s_elts s) (l_id x) with
               | Some (k, i) => if (same_type (l_type x) Emission && named (l_name x) && negb (is_out s k i))%bool then add_complex v n k i (r_flux r) (r_fluxerr r) a else a
               | None => a end
  else a.
Lemma measured_here s x k i e y : st_ok s -> at_line (s_elts s) k i y -> l_id y = l_id x -> forall k' i', measured s x k' i' e -> k' = k /\ i' = i.
Proof. intros W A E k' i' (N & (z & M & Ez) & _). destruct (at_unique (s_elts s) k' i' z k i y (proj2 (proj1 W))) as (A1 & A2); [exists e; auto|exact A|congruence|auto]. Qed.
Lemma one_row_spec v full s x ha oii : st_ok s ->
  (exists k i e, full = true /\ measured s x k i e /\ usable (val (t_amp e) i) /\ (forall p, ~ seen_in v k i p) /\ one_row v full s x ha oii = Throw INTERNAL_ERROR) \/
  (exists r, one_row v full s x ha oii = Ok (r, step v full is_ha 3 s x r ha, step v full is_oii 2 s x r oii) /\ row_ok v full s x r).
Proof.
  intro W. unfold one_row, step. pose proof (find_spec (s_elts s) (l_id x) (proj1 W)) as H. destruct (findElementIndex (s_elts s) (l_id x)) as [[k i]|].
  2: { right. exists (empty_row (l_id x)). split; [destruct full; reflexivity|]. split; [reflexivity|]. split.
       - intros k i y A E _. exfalso. apply (H k i y A E).
       - intros k i e (N & (y & M & E) & _). exfalso. apply (H k i y); [exists e; auto|exact E]. }
  destruct H as (y & A & Ey). destruct (at_vals s k i y W A) as (e & N & M & O & D & Out & G1 & G2 & G3 & G4). rewrite Out. cbn [rbind].
  assert (Here : forall k' i', (exists z, at_line (s_elts s) k' i' z /\ l_id z = l_id x) -> k' = k /\ i' = i).
  { intros k' i' (z & B & Ez). apply (at_unique (s_elts s) k' i' z k i y (proj2 (proj1 W)) B A). congruence. }
  destruct (is_out s k i) eqn:Io.
  { right. eexists. split; [rewrite !andb_false_r; destruct full; reflexivity|]. split; [intro Ab; exfalso; apply (Ab k i y A Ey)|]. split.
    - intros k' i' z B Ez _. destruct (Here k' i') as (-> & ->); [eauto|]. cbn [r_elt]. split; reflexivity.
    - intros k' i' e' (N' & (z & M' & Ez) & Io'). destruct (Here k' i') as (-> & ->); [exists z; split; [exists e'; auto|exact Ez]|]. congruence. }
  rewrite G1. cbn [rbind]. rewrite G2. cbn [rbind]. rewrite G3. cbn [rbind]. rewrite G4. cbn [rbind]. rewrite !andb_true_r.
  assert (Me : measured s x k i e) by (split; [exact N|]; split; [exists y; auto|exact Io]).
  assert (Fin : forall r, (r_id r = l_id x /\ r_elt r = Z.of_nat k /\ r_out r = false /\ r_info r = t_info e /\
     r_amp r = val (t_amp e) i /\ r_std r = val (t_std e) i /\ r_off r = val (t_off e) i /\
     r_vel r = (if t_em e then t_vem e else t_vab e) /\ r_lobs r = v_pos v k i (s_z s) /\
     r_snr r = (if v_rules v then fquo (nabs (val (t_amp e) i)) (val (t_std e) i) else NaN) /\
     (full = false -> r_rms r = None /\ r_cont r = None /\ r_contstd r = None /\ r_sigma r = None /\ r_flux r = None /\ r_fluxerr r = None /\ r_di r = None /\ r_dierr r = NaN /\ r_poly r = nan3) /\
     (full = true -> r_rms r = v_rms v k /\ (r_cont r, r_contstd r) = v_cont v k i /\ r_poly r = (if v_offsets v then t_poly e else nan3) /\
        flux_ok v (same_type (l_type x) Emission) k i (r_amp r) (r_std r) (r_cont r) (r_contstd r) (r_sigma r) (r_flux r) (r_fluxerr r) /\
        direct_ok v [(k, i)] (same_type (l_type x) Emission) (r_di r) (r_dierr r))) -> row_ok v full s x r).
  { intros r Hr. split; [intro Ab; exfalso; apply (Ab k i y A Ey)|]. split.
    - intros k' i' z B Ez Io'. destruct (Here k' i') as (-> & ->); [eauto|]. congruence.
    - intros k' i' e' (N' & (z & M' & Ez) & Io'). destruct (Here k' i') as (-> & ->); [exists z; split; [exists e'; auto|exact Ez]|]. replace e' with e by congruence. exact Hr. }
  destruct full.
  2: { right. eexists. split; [reflexivity|]. apply Fin. cbn. unfold getVelocity. repeat (split; [reflexivity|]). split; [intros _; repeat split; reflexivity|discriminate]. }
  set (a := val (t_amp e) i) in *. set (d := val (t_std e) i) in *. destruct (v_cont v k i) as [cont cstd] eqn:C.
  pose proof (direct_spec v [(k, i)] (same_type (l_type x) Emission)) as Dr. destruct (direct v [(k, i)] (same_type (l_type x) Emission)) as [di disnr]. destruct Dr as (Dr & _).
  destruct (nonneg a) eqn:Na.
  - pose proof (proj1 (nonneg_usable a) Na) as Us. pose proof (seen_spec v k i) as Sp. destruct (first_spec v k i (v_nspec v) 0) as [p|].
    2: { left. exists k, i, e. cbn [rbind]. repeat (split; [first [reflexivity|assumption]|]). reflexivity. }
    right. cbn [rbind]. match goal with |- exists r, Ok (?q, _, _) = _ /\ _ => exists q end. split; [cbn [r_flux r_fluxerr]; reflexivity|]. apply Fin. cbn. unfold getVelocity. repeat (split; [reflexivity|]). split; [discriminate|]. intros _. repeat (split; [reflexivity|]).
    split; [|exact Dr]. split; [|intro Nu; contradiction]. intros _. exists p. split; [exact Sp|]. split; [reflexivity|]. split.
    + intro Em. rewrite Em. split; reflexivity.
    + intro Em. rewrite Em. exists (max0 cont). split; [apply max0_above|]. split; reflexivity.
  - right. cbn [rbind]. match goal with |- exists r, Ok (?q, _, _) = _ /\ _ => exists q end. split; [cbn [r_flux r_fluxerr]; reflexivity|]. apply Fin. cbn. unfold getVelocity. repeat (split; [reflexivity|]). split; [discriminate|]. intros _. repeat (split; [reflexivity|]).
    split; [|exact Dr]. split; [intro Us; apply nonneg_usable in Us; congruence|]. intros _. auto.
Qed.
Fixpoint fold_steps (v : env) (full : bool) (named : string -> bool) (n : nat) (s : st) (cat : list line) (rows : list row) (a : acc) : acc :=
  match cat, rows with x :: t, r :: u => fold_steps v full named n s t u (step v full named n s x r a) | _, _ => a end.
Lemma all_rows_spec v full s cat : st_ok s -> forall ha oii,
  (exists x k i e, In x cat /\ full = true /\ measured s x k i e /\ usable (val (t_amp e) i) /\ (forall p, ~ seen_in v k i p) /\ all_rows v full s cat ha oii = Throw INTERNAL_ERROR) \/
  (exists rows, all_rows v full s cat ha oii = Ok (rows, fold_steps v full is_ha 3 s cat rows ha, fold_steps v full is_oii 2 s cat rows oii) /\ Forall2 (row_ok v full s) cat rows).
Proof.
  intro W. induction cat as [|x t IH]; intros ha oii; [right; exists []; split; [reflexivity|constructor]|]. cbn [all_rows].
  destruct (one_row_spec v full s x ha oii W) as [(k & i & e & F & Me & Us & No & E)|(r & E & R)]; rewrite E; cbn [rbind].
  - left. exists x, k, i, e. repeat (split; [first [left; reflexivity|assumption]|]). reflexivity.
  - cbn [fst snd]. destruct (IH (step v full is_ha 3 s x r ha) (step v full is_oii 2 s x r oii)) as [(x' & k & i & e & Ix & F & Me & Us & No & E')|(rows & E' & R')]; rewrite E'; cbn [rbind].
    + left. exists x', k, i, e. repeat (split; [first [right; assumption|assumption]|]). reflexivity.
    + right. exists (r :: rows). split; [reflexivity|constructor; assumption].
Qed.

(** ** the complexes *)
Definition add_all (v : env) (n : nat) (m : list (nat * nat * row)) (a : acc) : acc :=
  fold_left (fun a y => add_complex v n (fst (fst y)) (snd (fst y)) (r_flux (snd y)) (r_fluxerr (snd y)) a) m a.
Lemma fold_steps_full v named n s cat : forall rows a, fold_steps v true named n s cat rows a = add_all v n (members s named cat rows) a.
Proof.
  induction cat as [|x t IH]; intros rows a; [reflexivity|]. destruct rows as [|r u]; [reflexivity|]. cbn [fold_steps members]. rewrite IH. unfold step.
  destruct (findElementIndex (s_elts s) (l_id x)) as [[k i]|]; [|reflexivity]. destruct (same_type (l_type x) Emission && named (l_name x) && negb (is_out s k i))%bool; reflexivity.
Qed.
Lemma fold_steps_short v named n s cat : forall rows a, fold_steps v false named n s cat rows a = a.
Proof. induction cat as [|x t IH]; intros rows a; [reflexivity|]. destruct rows as [|r u]; [reflexivity|]. cbn [fold_steps step]. apply IH. Qed.
Lemma sum_pos_snoc f l x : sum_pos f (l ++ [x]) == sum_pos f l + match x with Some y => if Qltb 0 y then f y else 0 | None => 0 end.
Proof.
  induction l as [|y t IH]; cbn [app sum_pos].
  - destruct x as [y|]; [destruct (Qltb 0 y); ring|ring].
  - destruct y as [y|]; [destruct (Qltb 0 y)|]; rewrite IH; ring.
Qed.
Lemma add_all_spec v n m : n <> 0%nat -> let a := add_all v n m (mkAcc [] 0 0 no_complex) in
  a_list a = map fst m /\ a_flux a == sum_pos (fun x => x) (map (fun y => r_flux (snd y)) m) /\ a_var a == sum_pos (fun x => x * x) (map (fun y => r_fluxerr (snd y)) m) /\ complex_ok v n m (a_res a).
Proof.
  intro Hn. induction m as [|y m IH] using rev_ind.
  - split; [reflexivity|]. split; [reflexivity|]. split; [reflexivity|]. split; [reflexivity|]. cbn [List.length]. intro L. exfalso. lia.
  - unfold add_all in *. rewrite fold_left_app. cbn [fold_left]. cbv zeta in *. set (a := fold_left _ m _) in *. destruct IH as (A & B & C & D). unfold add_complex. cbn [a_list a_flux a_var a_res].
    rewrite A. assert (Ly : (fst (fst y), snd (fst y)) = fst y) by (destruct y as [[k i] r]; reflexivity). rewrite Ly. split; [rewrite map_app; reflexivity|].
    set (f := match r_flux (snd y) with Some x => if Qltb 0 x then a_flux a + x else a_flux a | None => a_flux a end).
    set (w := match r_fluxerr (snd y) with Some x => if Qltb 0 x then a_var a + x * x else a_var a | None => a_var a end).
    assert (Ef : f == sum_pos (fun x => x) (map (fun y => r_flux (snd y)) (m ++ [y]))).
    { rewrite map_app. cbn [map]. rewrite sum_pos_snoc, <- B. unfold f. destruct (r_flux (snd y)) as [x|]; [destruct (Qltb 0 x); ring|ring]. }
    assert (Ew : w == sum_pos (fun x => x * x) (map (fun y => r_fluxerr (snd y)) (m ++ [y]))).
    { rewrite map_app. cbn [map]. rewrite sum_pos_snoc, <- C. unfold w. destruct (r_fluxerr (snd y)) as [x|]; [destruct (Qltb 0 x); ring|ring]. }
    split; [exact Ef|]. split; [exact Ew|]. assert (Ll : List.length (map fst m ++ [fst y]) = List.length (m ++ [y])) by (rewrite !app_length, map_length; reflexivity). rewrite Ll.
    destruct (Nat.eqb_spec (List.length (m ++ [y])) n) as [E|Ne].
    + split; [intro; lia|]. intros _. rewrite <- E, firstn_all. rewrite (map_app fst m [y]). cbn [map]. cbv zeta.
      pose proof (direct_spec v (map fst m ++ [fst y]) false) as Dr. destruct (direct v (map fst m ++ [fst y]) false) as [di snr]. destruct Dr as (_ & D1 & D2). exists f, w.
      split; [exact Ef|]. split; [exact Ew|]. cbn [c_snr c_lf c_snrdi c_lfdi lflux]. split; [reflexivity|]. split; [reflexivity|]. split.
      * intro L. destruct (D1 L) as (-> & ->). auto.
      * intro L. destruct (D2 L) as (-> & ->). auto.
    + destruct D as (D1 & D2). rewrite app_length in Ne. cbn [List.length] in Ne. split.
      * intro L. apply D1. rewrite app_length in L. cbn [List.length] in L. lia.
      * intro L. rewrite app_length in L. cbn [List.length] in L. rewrite firstn_app. replace (n - List.length m)%nat with 0%nat by lia. cbn [firstn]. rewrite app_nil_r. apply D2. lia.
Qed.

(** ** the number of degrees of freedom *)
Lemma nddl_spec es : forall out, List.length out = List.length es -> nddl es out = Ok (List.length (filter (fun p => (negb (snd p) && in_use (fst p))%bool) (combine es out))).
Proof.
  induction es as [|e t IH]; intros out L; [destruct out; [reflexivity|discriminate]|]. destruct out as [|o r]; [discriminate|]. cbn [nddl combine filter fst snd]. rewrite (IH r) by (cbn in L; lia). cbn [rbind].
  unfold isAllAmplitudesNull. rewrite negb_involutive. unfold in_use at 2. change (existsb positive (t_amp e)) with (in_use e). unfold in_use at 3.
  destruct (negb o && in_use e)%bool eqn:X; unfold in_use in X |- *; rewrite X; reflexivity.
Qed.

(** ** Lya *)
Lemma asym_from_in l : forall n i, In i (asym_from n l) -> (n <= i < n + List.length l)%nat.
Proof.
  induction l as [|x t IH]; intros n i I; [destruct I|]. cbn [asym_from List.length] in *. destruct (isAsym (l_profile x) || isSymIgm (l_profile x))%bool; [destruct I as [E|I]; [subst; lia|]|]; apply IH in I; lia.
Qed.
Lemma asym_from_first l : forall n, match asym_from n l with
  | [] => forall x, In x l -> (isAsym (l_profile x) || isSymIgm (l_profile x))%bool = false
  | i :: _ => (n <= i)%nat /\ exists x, nth_error l (i - n) = Some x /\ (isAsym (l_profile x) || isSymIgm (l_profile x))%bool = true /\
      forall j y, (j < i - n)%nat -> nth_error l j = Some y -> (isAsym (l_profile y) || isSymIgm (l_profile y))%bool = false end.
Proof.
  induction l as [|x t IH]; intro n; [intros x []|]. cbn [asym_from]. destruct (isAsym (l_profile x) || isSymIgm (l_profile x))%bool eqn:Mk.
  - split; [lia|]. rewrite Nat.sub_diag. exists x. repeat (split; [first [reflexivity|assumption]|]). intros; lia.
  - specialize (IH (S n)). destruct (asym_from (S n) t) as [|i u]; [intros y [E|I]; [subst; exact Mk|apply IH, I]|]. destruct IH as (L & y & Ny & My & Hy). split; [lia|]. exists y.
    replace (i - n)%nat with (S (i - S n)) by lia. repeat (split; [assumption|]). intros j z Lj Nz. destruct j as [|j]; [injection Nz as <-; exact Mk|apply (Hy j z); [lia|exact Nz]].
Qed.
Lemma find_tag_spec tag es : forall k0, match find_tag k0 es tag with
  | Some k => (k0 <= k)%nat /\ exists e x, nth_error es (k - k0) = Some e /\ In x (t_lines e) /\ contains tag (l_name x) = true /\
      forall j e' y, (j < k - k0)%nat -> nth_error es j = Some e' -> In y (t_lines e') -> contains tag (l_name y) = false
  | None => forall e x, In e es -> In x (t_lines e) -> contains tag (l_name x) = false end.
Proof.
  induction es as [|e t IH]; intro k0; [intros e x []|]. cbn [find_tag]. destruct (existsb (fun x => contains tag (l_name x)) (t_lines e)) eqn:X.
  - apply existsb_exists in X. destruct X as (x & Ix & T). split; [lia|]. rewrite Nat.sub_diag. exists e, x. repeat (split; [first [reflexivity|assumption]|]). intros; lia.
  - assert (No : forall y, In y (t_lines e) -> contains tag (l_name y) = false).
    { intros y Iy. destruct (contains tag (l_name y)) eqn:C; [|reflexivity]. rewrite (proj2 (existsb_exists _ _)) in X; [discriminate|eauto]. }
    specialize (IH (S k0)). destruct (find_tag (S k0) t tag) as [k|].
    + destruct IH as (L & e' & x & N & Ix & T & Hb). split; [lia|]. exists e', x. replace (k - k0)%nat with (S (k - S k0)) by lia. repeat (split; [assumption|]).
      intros j f y Lj Nf Iy. destruct j as [|j]; [injection Nf as <-; apply No, Iy|apply (Hb j f y); [lia|exact Nf|exact Iy]].
    + intros f y [E|I] Iy; [subst f; apply No, Iy|apply (IH f y I Iy)].
Qed.

(** ** the whole solution *)
Lemma first_asym_spec e : elt_ok e -> exists p, first_asym e = Ok p /\ match p with None => unmarked e | Some q => first_marked_line e q end.
Proof.
  intros (_ & _ & Ha & _). unfold first_asym. rewrite Ha. pose proof (asym_from_first (t_lines e) 0) as H. destruct (asym_from 0 (t_lines e)) as [|i u].
  - exists None. split; [reflexivity|exact H].
  - destruct H as (_ & x & N & Mk & Hb). rewrite Nat.sub_0_r in *. rewrite (proj2 (vget_Ok _ _ _) N). cbn [rbind]. exists (Some (l_profile x)). split; [reflexivity|]. exists i, x. auto.
Qed.
Lemma marked_unique e p q : first_marked_line e p -> first_marked_line e q -> p = q.
Proof.
  intros (i & x & N & M & H & <-) (j & y & N' & M' & H' & <-). destruct (Nat.lt_trichotomy i j) as [L|[E|L]].
  - rewrite (H' i x L N) in M. discriminate.
  - subst j. congruence.
  - rewrite (H j y L N') in M'. discriminate.
Qed.
Lemma lya_unique es k e k' e' : lya_elt es k e -> lya_elt es k' e' -> k = k' /\ e = e'.
Proof.
  intros (N & (x & I & T) & H) (N' & (x' & I' & T') & H'). destruct (Nat.lt_trichotomy k k') as [L|[E|L]].
  - rewrite (H' k e x L N I) in T. discriminate.
  - subst k'. split; [reflexivity|congruence].
  - rewrite (H k' e' x' L N' I') in T'. discriminate.
Qed.
Lemma solution_parts v full cat s : st_ok s ->
  (exists x k i e, In x cat /\ full = true /\ measured s x k i e /\ usable (val (t_amp e) i) /\ (forall p, ~ seen_in v k i p) /\ GetModelSolution v full cat s = Throw INTERNAL_ERROR) \/
  (exists o, GetModelSolution v full cat s = Ok o /\ Forall2 (row_ok v full s) cat (o_rows o) /\
     (full = true -> complex_ok v 3 (members s is_ha cat (o_rows o)) (o_ha o) /\ complex_ok v 2 (members s is_oii cat (o_rows o)) (o_oii o)) /\
     (full = false -> o_ha o = no_complex /\ o_oii o = no_complex) /\
     o_nddl o = List.length (filter (fun p => (negb (snd p) && in_use (fst p))%bool) (combine (s_elts s) (s_allout s))) /\ o_z o = s_z s /\
     (exists e0, nth_error (s_elts s) 0 = Some e0 /\ o_vem o = t_vem e0 /\ o_vab o = t_vab e0) /\ lya_ok (s_elts s) o).
Proof.
  intro W. unfold GetModelSolution. pose proof W as (We & Ne & F & L).
  destruct (s_elts s) as [|e0 et] eqn:Es; [contradiction|]. rewrite <- Es in *. assert (N0 : nth_error (s_elts s) 0 = Some e0) by (rewrite Es; reflexivity). rewrite (proj2 (vget_Ok _ _ _) N0). cbn [rbind].
  rewrite (nddl_spec _ _ L). cbn [rbind].
  destruct (all_rows_spec v full s cat W (mkAcc [] 0 0 no_complex) (mkAcc [] 0 0 no_complex)) as [(x & k & i & e & I & Fu & Me & Us & No & E)|(rows & E & R)]; rewrite E; cbn [rbind].
  { left. exists x, k, i, e. repeat (split; [assumption|]). reflexivity. }
  right. pose proof (find_tag_spec "LyAE" (s_elts s) 0) as Ft.
  assert (Ly : exists p, match find_tag 0 (s_elts s) "LyAE" with Some k => do e <- vget (s_elts s) k; first_asym e | None => Ok None end = Ok p /\
     forall r h q n a b z, lya_ok (s_elts s) (mkSol r h q n (lya_params p) (lya_igm p) a b z)).
  { destruct (find_tag 0 (s_elts s) "LyAE") as [k|].
    - destruct Ft as (_ & e & x & N & Ix & T & Hb). rewrite Nat.sub_0_r in *. rewrite (proj2 (vget_Ok _ _ _) N). cbn [rbind].
      assert (Le : lya_elt (s_elts s) k e) by (split; [exact N|]; split; [exists x; auto|exact Hb]).
      destruct (first_asym_spec e) as (p & Ep & Hp); [apply (elt_distinct _ e We (nth_error_In _ _ N))|]. exists p. split; [exact Ep|]. intros. unfold lya_ok. cbn [o_lya o_igm]. split.
      + intro Ab. rewrite (Ab e x (nth_error_In _ _ N) Ix) in T. discriminate.
      + intros k' e' Le'. destruct (lya_unique _ _ _ _ _ Le Le') as (<- & <-). destruct p as [q0|].
        * split; [intro Un; exfalso; destruct Hp as (i & y & Ni & Mk & _); rewrite (Un y (nth_error_In _ _ Ni)) in Mk; discriminate|]. intros p' Fp. rewrite (marked_unique _ _ _ Fp Hp). destruct Hp as (i & y & _ & Mk & _ & Ey). unfold marked in Mk. rewrite Ey in Mk. destruct q0; cbn in Mk |- *; try discriminate; auto.
        * split; [intros _; auto|]. intros p' (i & y & Ni & Mk & _). exfalso. rewrite (Hp y (nth_error_In _ _ Ni)) in Mk. discriminate.
    - exists None. split; [reflexivity|]. intros. split; [intros _; auto|]. intros k e (N & (x & Ix & T) & _). rewrite (Ft e x (nth_error_In _ _ N) Ix) in T. discriminate. }
  destruct Ly as (p & Ep & Hp). rewrite Ep. cbn [rbind fst snd]. eexists. split; [reflexivity|]. cbn [o_rows o_ha o_oii o_nddl o_z o_vem o_vab].
  split; [exact R|]. split; [|split; [|split; [reflexivity|split; [reflexivity|split; [exists e0; auto|apply Hp]]]]].
  - intros ->. rewrite !fold_steps_full. split; apply add_all_spec; discriminate.
  - intros ->. rewrite !fold_steps_short. auto.
Qed.
Lemma solution_spec v full cat s : st_ok s ->
  (full = true -> forall x k i e, In x cat -> measured s x k i e -> usable (val (t_amp e) i) -> exists p, seen_in v k i p) ->
  exists o, GetModelSolution v full cat s = Ok o /\ Forall2 (row_ok v full s) cat (o_rows o) /\
     (full = true -> complex_ok v 3 (members s is_ha cat (o_rows o)) (o_ha o) /\ complex_ok v 2 (members s is_oii cat (o_rows o)) (o_oii o)) /\
     (full = false -> o_ha o = no_complex /\ o_oii o = no_complex) /\
     o_nddl o = List.length (filter (fun p => (negb (snd p) && in_use (fst p))%bool) (combine (s_elts s) (s_allout s))) /\ o_z o = s_z s /\
     (exists e0, nth_error (s_elts s) 0 = Some e0 /\ o_vem o = t_vem e0 /\ o_vab o = t_vab e0) /\ lya_ok (s_elts s) o.
Proof.
  intros W H. destruct (solution_parts v full cat s W) as [(x & k & i & e & I & Fu & Me & Us & No & E)|P]; [|exact P]. exfalso. destruct (H Fu x k i e I Me Us) as (p & Sp). apply (No p Sp).
Qed.
Lemma solution_throws v cat s x k i e : st_ok s -> In x cat -> measured s x k i e -> usable (val (t_amp e) i) -> (forall p, ~ seen_in v k i p) -> GetModelSolution v true cat s = Throw INTERNAL_ERROR.
Proof.
  intros W I Me Us No. destruct (solution_parts v true cat s W) as [(x' & k' & i' & e' & _ & _ & _ & _ & _ & E)|(o & E & R & _)]; [exact E|]. exfalso.
  apply In_nth_error in I. destruct I as (n & N). destruct (F2_at _ _ _ _ _ R N) as (r & _ & (_ & _ & H)). destruct (H k i e Me) as (_ & _ & _ & _ & Ea & _ & _ & _ & _ & _ & _ & Hf).
  destruct (Hf eq_refl) as (_ & _ & _ & (Fl & _) & _). rewrite Ea in Fl. destruct (Fl Us) as (p & Sp & _). apply (No p Sp).
Qed.
Lemma solution_empty v full cat s : s_elts s = [] -> GetModelSolution v full cat s = UB.
Proof. intro E. unfold GetModelSolution. rewrite E. reflexivity. Qed.
(** signs of the fluxes *)
Lemma flux_signs v s x k i e r : (forall p, 0 <= v_lflux v p k i) -> row_ok v true s x r -> measured s x k i e -> forall f, r_flux r = Some f ->
  (l_type x = Emission -> 0 <= f) /\ (l_type x = Absorption -> f <= 0).
Proof.
  intros Lf (_ & _ & H) Me f Ef. destruct (H k i e Me) as (_ & _ & _ & _ & Ea & _ & _ & _ & _ & _ & _ & Hf). destruct (Hf eq_refl) as (_ & _ & _ & (Fl & Fn) & _).
  destruct (r_amp r) as [a|] eqn:Era.
  2: { assert (U : ~ usable None) by (intros (y & E & _); discriminate). destruct (Fn U) as (_ & X & _). congruence. }
  destruct (Qlt_le_dec a 0) as [La|La].
  { assert (U : ~ usable (Some a)) by (intros (y & E & Ly); injection E as <-; lra). destruct (Fn U) as (_ & X & _). congruence. }
  destruct (Fl (ex_intro _ a (conj eq_refl La))) as (p & _ & _ & F1 & F2). specialize (Lf p). split; intro Ty; rewrite Ty in F1, F2; cbn [same_type] in F1, F2.
  - destruct (F1 eq_refl) as (X & _). rewrite Ef in X. cbn [nmul] in X. injection X as ->. nra.
  - destruct (F2 eq_refl) as (m & Ab & X & _). rewrite Ef in X. cbn [nmul] in X. injection X as ->.
    assert (0 <= m). { unfold above in Ab. destruct (r_cont r) as [c|]; [destruct Ab as [(Lc & ->)|(_ & ->)]; lra|subst; lra]. } assert (0 <= a * m) by nra. assert (0 <= (a * m) * v_lflux v p k i) by nra. nra.
Qed.
(** the error of the direct integration *)
Lemma direct_error v l sub f err : direct_ok v l sub (Some f) err -> (forall w, 0 < w -> 0 < v_sqrt v w) ->
  (~ f == 0 -> exists u, err = Fin u /\ u == v_sqrt v (snd (v_di v l sub))) /\ (f == 0 -> err = NaN).
Proof.
  intros (D0 & D1) Sq. destruct (Qlt_le_dec 0 (snd (v_di v l sub))) as [L|L]; [|destruct (D0 L) as (X & _); discriminate].
  destruct (D1 L) as (E & ->). injection E as ->. set (g := fst (v_di v l sub)) in *. set (q := v_sqrt v (snd (v_di v l sub))) in *. assert (Pq : 0 < q) by (apply Sq, L). unfold fquo. split.
  - intro Nf. assert (Pa : 0 < Qabs g). { destruct (Qlt_le_dec 0 (Qabs g)) as [P|P]; [exact P|]. exfalso. apply Nf. apply Qabs_Qle_condition in P. lra. }
    assert (Pd : 0 < Qabs g / q) by (apply Qlt_shift_div_l; lra). destruct (Qeq_bool (Qabs g / q) 0) eqn:X; [apply Qeq_bool_iff in X; lra|]. eexists. split; [reflexivity|]. field. split; lra.
  - intro Zf. assert (Z : Qabs g == 0) by (rewrite Zf; reflexivity). assert (Zd : Qabs g / q == 0) by (rewrite Z; field; lra). apply Qeq_bool_iff in Zd. rewrite Zd. apply Qeq_bool_iff in Z. rewrite Z. reflexivity.
Qed.
