(** C70, proofs: sums, integrals, signal to noise. *)
From Coq Require Import String Qabs Lqa.
From Verif Require Import Base MeikModel IntegModel IntegSpec IntegProofs MspModel MspSpec MspProofs.
Open Scope Q_scope.

Lemma sq_spec f c : forall n t acc, fst (sq_loop f c t n acc) == fst acc + sigma (fun i => (f i - c i) * (f i - c i)) t n /\ snd (sq_loop f c t n acc) = (snd acc + n)%nat.
Proof. induction n as [|n IH]; intros t acc; cbn [sq_loop sigma]; [split; [ring|lia]|]. destruct (IH (S t) (fst acc + (f t - c t) * (f t - c t), S (snd acc))) as (A & B). cbn [fst snd] in A, B. rewrite A, B. split; [ring|lia]. Qed.
Lemma Residual es offs axis b e s : let r := continuumResidual es offs axis b e s in let f := fst (linesRemoved es offs axis None s) in
  fst (fst r) == sigma (fun t => (f t - m_cont s t) * (f t - m_cont s t)) b (S e - b) /\ snd (fst r) = (S e - b)%nat /\ snd r = snd (linesRemoved es offs axis None s).
Proof.
  intros r f. subst r f. unfold continuumResidual. pose proof (Removed_state es offs axis None s) as (C & _). destruct (linesRemoved es offs axis None s) as [f s2]. cbn [fst snd] in *. rewrite C. destruct (sq_spec f (m_cont s) (S e - b) b (0, 0%nat)) as (A & B). cbn [fst snd] in A, B. split; [rewrite A; ring|]. split; [exact B|reflexivity].
Qed.
Lemma wsum_spec offs axis s poly : forall ws t acc, let g := fun i => m_cont s i + match offs with Some _ => poly (axis i) | None => 0 end in
  let r := wsum_loop offs axis s poly t ws acc in
  fst (fst r) == fst (fst acc) + sigma (fun i => at_ ws (i - t) * g i) t (List.length ws) /\ snd (fst r) == snd (fst acc) + sigma (fun i => at_ ws (i - t)) t (List.length ws) /\ snd r == snd acc + sigma (fun i => at_ ws (i - t) * at_ ws (i - t)) t (List.length ws).
Proof.
  assert (SE : forall (f h : nat -> Q) n b, (forall i, (b <= i)%nat -> f i == h i) -> sigma f b n == sigma h b n). { intros f h. induction n as [|n IH]; intros b E; cbn [sigma]; [reflexivity|]. rewrite (E b) by lia. rewrite IH; [reflexivity|]. intros i I. apply E. lia. }
  induction ws as [|w k IH]; intros t acc g r; subst r; cbn [wsum_loop List.length sigma]; [split; [ring|split; ring]|].
  destruct (IH (S t) (fst (fst acc) + w * match offs with Some _ => m_cont s t + poly (axis t) | None => m_cont s t end, snd (fst acc) + w, snd acc + w * w)) as (A & B & C). cbn [fst snd] in A, B, C. fold g in A. rewrite A, B, C.
  rewrite Nat.sub_diag. cbn [at_ nth]. unfold at_. split; [|split].
  - rewrite (SE (fun i => nth (i - t) (w :: k) 0 * g i) (fun i => nth (i - S t) k 0 * g i)); [|intros i I; replace (i - t)%nat with (S (i - S t)) by lia; reflexivity]. unfold g. destruct offs; ring.
  - rewrite (SE (fun i => nth (i - t) (w :: k) 0) (fun i => nth (i - S t) k 0)); [|intros i I; replace (i - t)%nat with (S (i - S t)) by lia; reflexivity]. ring.
  - rewrite (SE (fun i => nth (i - t) (w :: k) 0 * nth (i - t) (w :: k) 0) (fun i => nth (i - S t) k 0 * nth (i - S t) k 0)); [|intros i I; replace (i - t)%nat with (S (i - S t)) by lia; reflexivity]. ring.
Qed.

(** * the continuum under the lines *)
Lemma ContinuumUnder es offs rs idx sub s l : mapr (vget es) idx = Ok l -> exists c, continuumUnderLines es offs rs idx sub s = Ok c /\ forall t,
  (~ under rs t -> c t == 0) /\
  (under rs t -> sub = false -> c t == m_cont s t + offset_at offs idx t) /\
  (under rs t -> sub = true -> ~ under (flat_map e_win l) t -> c t == offset_at offs idx t) /\
  (under rs t -> sub = true -> forall e, last_over l t e -> c t == m_cont s t + (if has_type (Some false) e then e_add e (m_cont s t) t else 0) + offset_at offs idx t).
Proof.
  intros E. destruct (GetModel es idx l (Some false) s E) as (f & F & M). unfold continuumUnderLines. rewrite F. destruct sub; cbn [rbind]; (eexists; split; [reflexivity|]); intros t; cbv beta; rewrite in_win_b; (split; [intros U; rewrite (not_under _ _ U); reflexivity|]);
    (split; [intros U K; try discriminate; apply under_spec in U; rewrite U; destruct offs; unfold offset_at; ring|]).
  - destruct (M t) as (M1 & M2). split.
    + intros U _ N. apply under_spec in U. rewrite U. pose proof (M1 N) as Z. destruct offs; unfold offset_at; rewrite Z; ring.
    + intros U _ e L. apply under_spec in U. rewrite U. pose proof (M2 e L) as Z. destruct offs; unfold offset_at; rewrite Z; ring.
  - split; intros U K; discriminate.
Qed.
Lemma minus_spec c : forall (rs : list (nat * nat)) f t, apart rs -> (under (as_Z rs) t -> minus_continuum (as_Z rs) c f t == f t - c t) /\ (~ under (as_Z rs) t -> minus_continuum (as_Z rs) c f t == f t).
Proof.
  unfold minus_continuum. induction rs as [|r k IH]; intros f t A; cbn [as_Z map fold_left].
  - split; [intros (b & e & [] & _)|reflexivity].
  - inversion A as [|? ? F AK]; subst. set (f1 := fun u : nat => if in_win [(Z.of_nat (fst r), Z.of_nat (snd r))] u then f u - c u else f u). destruct (IH f1 t AK) as (I1 & I2).
    assert (F1 : (under [(Z.of_nat (fst r), Z.of_nat (snd r))] t -> f1 t = f t - c t) /\ (~ under [(Z.of_nat (fst r), Z.of_nat (snd r))] t -> f1 t = f t)). { unfold f1. cbv beta. rewrite in_win_b. split; intros U; [apply under_spec in U; rewrite U; reflexivity|rewrite (not_under _ _ U); reflexivity]. }
    destruct F1 as (F1 & F2). split.
    + intros (b & e & [I|I] & H).
      * inversion I; subst. rewrite I2; [rewrite F1; [reflexivity|]|].
        -- exists (Z.of_nat (fst r)), (Z.of_nat (snd r)). split; [left; reflexivity|exact H].
        -- intros (b & e & J & K). apply in_map_iff in J. destruct J as (q & Q1 & Q2). inversion Q1; subst. rewrite Forall_forall in F. specialize (F q Q2). lia.
      * rewrite I1 by (exists b, e; auto). rewrite F2; [reflexivity|]. intros (b' & e' & [J|[]] & K). inversion J; subst. apply in_map_iff in I. destruct I as (q & Q1 & Q2). inversion Q1; subst. rewrite Forall_forall in F. specialize (F q Q2). lia.
    + intros N. rewrite I2 by (intros (b & e & J & K); apply N; exists b, e; split; [right; exact J|exact K]). rewrite F2; [reflexivity|]. intros (b & e & [J|[]] & K). apply N. exists b, e. split; [left; exact J|exact K].
Qed.
Lemma at_map f n i : (i < n)%nat -> at_ (map f (seq 0 n)) i = f i.
Proof. intros L. unfold at_. rewrite (nth_indep _ 0 (f 0%nat)) by (rewrite map_length, seq_length; exact L). rewrite map_nth, seq_nth by exact L. reflexivity. Qed.
Lemma sigma_ext2 f g : forall n b, (forall i, (b <= i < b + n)%nat -> f i == g i) -> sigma f b n == sigma g b n.
Proof. induction n as [|n IH]; intros b E; cbn [sigma]; [reflexivity|]. rewrite (E b) by lia. rewrite IH; [reflexivity|]. intros i I. apply E. lia. Qed.
Lemma integral_ext xs f g n b e : (e < n)%nat -> (forall t, (b <= t <= e)%nat -> f t == g t) -> piecewise_linear_integral xs (map f (seq 0 n)) b e == piecewise_linear_integral xs (map g (seq 0 n)) b e.
Proof.
  intros L E. unfold piecewise_linear_integral. apply sigma_ext2. intros i I. rewrite !at_map by lia. rewrite (E i), (E (S i)) by lia. reflexivity.
Qed.
Lemma Direct es offs axis n err rs idx sub_idx sub s l : mapr (vget es) idx = Ok l -> List.length idx = List.length sub_idx -> rs <> [] -> apart rs -> (2 <= n)%nat -> Forall (fun r => (fst r <= snd r < n)%nat) rs ->
  exists c F E, continuumUnderLines es offs (as_Z rs) idx sub s = Ok c /\ directIntegration es offs axis n err (as_Z rs) idx sub_idx sub s = Ok (F, E) /\ F == integrals axis (fun t => m_spc s t - c t) n rs.
Proof.
  intros M L NE A N B. destruct (ContinuumUnder es offs (as_Z rs) idx sub s l M) as (c & C & _). exists c. unfold directIntegration. rewrite L, Nat.eqb_refl. cbn [negb]. rewrite C.
  assert (LX : forall g : nat -> Q, List.length (map g (seq 0 n)) = n) by (intros; rewrite map_length, seq_length; reflexivity).
  destruct (Integrals (map axis (seq 0 n)) (map (minus_continuum (as_Z rs) c (m_spc s)) (seq 0 n)) (map err (seq 0 n)) rs) as (F & E & I & J); [rewrite !LX; reflexivity|rewrite !LX; reflexivity|rewrite LX; exact N|rewrite LX; exact B|].
  exists F, E. split; [reflexivity|]. fold (as_Z rs) in I. split; [destruct rs as [|r k]; [congruence|]; cbn [as_Z map]; cbn [rbind]; exact I|]. rewrite J. unfold integrals. clear J I.
  assert (G : forall q, (forall r, In r q -> In r rs) -> fold_right (fun r s0 => piecewise_linear_integral (map axis (seq 0 n)) (map (minus_continuum (as_Z rs) c (m_spc s)) (seq 0 n)) (fst r) (snd r) + s0) 0 q ==
                      fold_right (fun r s0 => piecewise_linear_integral (map axis (seq 0 n)) (map (fun t => m_spc s t - c t) (seq 0 n)) (fst r) (snd r) + s0) 0 q).
  { induction q as [|r k IH]; intros S0; cbn [fold_right]; [reflexivity|]. rewrite IH by (intros; apply S0; right; assumption). rewrite Forall_forall in B. specialize (B r (S0 r (or_introl eq_refl))). rewrite (integral_ext _ (minus_continuum (as_Z rs) c (m_spc s)) (fun t => m_spc s t - c t)); [reflexivity|lia|].
    intros t T. apply (minus_spec c rs (m_spc s) t A). exists (Z.of_nat (fst r)), (Z.of_nat (snd r)). split; [apply in_map_iff; exists r; split; [reflexivity|apply S0; left; reflexivity]|lia]. }
  apply G. auto.
Qed.
Lemma Integrals_ext axis f g n rs : Forall (fun r => (fst r <= snd r < n)%nat) rs -> (forall t, under (as_Z rs) t -> f t == g t) -> integrals axis f n rs == integrals axis g n rs.
Proof.
  intros B E. unfold integrals. assert (G : forall q, (forall r, In r q -> In r rs) -> fold_right (fun r s => piecewise_linear_integral (map axis (seq 0 n)) (map f (seq 0 n)) (fst r) (snd r) + s) 0 q == fold_right (fun r s => piecewise_linear_integral (map axis (seq 0 n)) (map g (seq 0 n)) (fst r) (snd r) + s) 0 q).
  { induction q as [|r k IH]; intros S0; cbn [fold_right]; [reflexivity|]. rewrite IH by (intros; apply S0; right; assumption). rewrite Forall_forall in B. specialize (B r (S0 r (or_introl eq_refl))). rewrite (integral_ext _ f g); [reflexivity|lia|].
    intros t T. apply E. exists (Z.of_nat (fst r)), (Z.of_nat (snd r)). split; [apply in_map_iff; exists r; split; [reflexivity|apply S0; left; reflexivity]|lia]. }
  apply G. auto.
Qed.
(** without subtraction of the absorption: the flux over the continuum and the offsets *)
Lemma Direct_plain es offs axis n err rs idx sub_idx s l : mapr (vget es) idx = Ok l -> List.length idx = List.length sub_idx -> rs <> [] -> apart rs -> (2 <= n)%nat -> Forall (fun r => (fst r <= snd r < n)%nat) rs ->
  exists F E, directIntegration es offs axis n err (as_Z rs) idx sub_idx false s = Ok (F, E) /\ F == integrals axis (fun t => m_spc s t - m_cont s t - offset_at offs idx t) n rs.
Proof.
  intros M L NE A N B. destruct (Direct es offs axis n err rs idx sub_idx false s l M L NE A N B) as (c & F & E & C & D & G). exists F, E. split; [exact D|]. rewrite G. apply Integrals_ext; [exact B|]. intros t U.
  destruct (ContinuumUnder es offs (as_Z rs) idx false s l M) as (c' & C' & H). rewrite C in C'. inversion C'; subst c'. destruct (H t) as (_ & H2 & _). rewrite (H2 U eq_refl). ring.
Qed.
(** the absorption is never subtracted from emission elements *)
Lemma Direct_emission es offs axis n err rs idx sub_idx s l : mapr (vget es) idx = Ok l -> List.length idx = List.length sub_idx -> rs <> [] -> apart rs -> (2 <= n)%nat -> Forall (fun r => (fst r <= snd r < n)%nat) rs ->
  (forall e, In e l -> e_em e = true) -> (forall t, under (as_Z rs) t -> under (flat_map e_win l) t) ->
  exists F E F' E', directIntegration es offs axis n err (as_Z rs) idx sub_idx true s = Ok (F, E) /\ directIntegration es offs axis n err (as_Z rs) idx sub_idx false s = Ok (F', E') /\ F == F'.
Proof.
  intros M L NE A N B EM UN. destruct (Direct es offs axis n err rs idx sub_idx true s l M L NE A N B) as (c & F & E & C & D & G). destruct (Direct_plain es offs axis n err rs idx sub_idx s l M L NE A N B) as (F' & E' & D' & G').
  exists F, E, F', E'. split; [exact D|]. split; [exact D'|]. rewrite G, G'. apply Integrals_ext; [exact B|]. intros t U.
  destruct (ContinuumUnder es offs (as_Z rs) idx true s l M) as (c' & C' & H). rewrite C in C'. inversion C'; subst c'. destruct (H t) as (_ & _ & _ & H4). destruct (last_exists l t (UN t U)) as (e & LO). rewrite (H4 U eq_refl e LO).
  destruct LO as (a & b & EL & _). unfold has_type. rewrite (EM e); [cbn [negb]; ring|]. rewrite EL. apply in_or_app. right. left. reflexivity.
Qed.

(** * means *)
Lemma mean_fold l : forall a, let t := fold_left (fun a b => mkC (c_sum a + c_sum b) (c_w a + c_w b) (c_w2 a + c_w2 b) (c_res a + c_res b) (c_n a + c_n b)) l a in
  c_sum t == c_sum a + fold_right (fun b s => c_sum b + s) 0 l /\ c_w t == c_w a + fold_right (fun b s => c_w b + s) 0 l /\ c_w2 t == c_w2 a + fold_right (fun b s => c_w2 b + s) 0 l /\ c_res t == c_res a + fold_right (fun b s => c_res b + s) 0 l /\ c_n t = (c_n a + fold_right (fun b s => c_n b + s) 0 l)%nat.
Proof.
  induction l as [|b k IH]; intros a t; subst t; cbn [fold_left fold_right]; [split; [ring|]; split; [ring|]; split; [ring|]; split; [ring|lia]|]. destruct (IH (mkC (c_sum a + c_sum b) (c_w a + c_w b) (c_w2 a + c_w2 b) (c_res a + c_res b) (c_n a + c_n b))) as (A & B & C & D & E). cbn [c_sum c_w c_w2 c_res c_n] in *. split; [rewrite A; ring|]. split; [rewrite B; ring|]. split; [rewrite C; ring|]. split; [rewrite D; ring|]. rewrite E. lia.
Qed.
Lemma Mean sqrtf l lo hi : (forall c, In c l -> 0 <= c_w c /\ lo * c_w c <= c_sum c <= hi * c_w c) -> let w := fold_right (fun b s => c_w b + s) 0 l in
  (w == 0 -> meanContinuum sqrtf l = (None, None)) /\
  (0 < w -> exists m sd, meanContinuum sqrtf l = (Some m, sd) /\ m * w == fold_right (fun b s => c_sum b + s) 0 l /\ lo <= m <= hi /\ (sd = None <-> (fold_right (fun b s => c_n b + s) 0 l < 10)%nat)).
Proof.
  intros H w. unfold meanContinuum. destruct (mean_fold l (mkC 0 0 0 0 0)) as (A & B & C & D & E). cbn [c_sum c_w c_w2 c_res c_n] in A, B, C, D, E. fold w in B. set (t := fold_left _ l _) in *. split.
  - intros Z. destruct (Qeq_bool (c_w t) 0) eqn:Q; [reflexivity|]. apply Qeq_bool_neq in Q. exfalso. apply Q. rewrite B. lra.
  - intros P. assert (T : 0 < c_w t) by lra. destruct (Qeq_bool (c_w t) 0) eqn:Q; [apply Qeq_bool_eq in Q; lra|]. eexists _, _. split; [reflexivity|]. split; [|split].
    + assert (X : c_w t == w) by lra. rewrite <- X. rewrite A. field. lra.
    + assert (G : lo * w <= fold_right (fun b s => c_sum b + s) 0 l <= hi * w). { unfold w. clear -H. induction l as [|b k IH]; cbn [fold_right]; [lra|]. destruct (H b (or_introl eq_refl)) as (_ & H1). destruct IH as (I1 & I2); [intros; apply H; right; assumption|]. nra. }
      split; [apply Qle_shift_div_l; [exact T|]; rewrite A; setoid_replace (c_w t) with w by lra; lra|apply Qle_shift_div_r; [exact T|]; rewrite A; setoid_replace (c_w t) with w by lra; lra].
    + rewrite E. destruct (Nat.leb_spec 10 (0 + fold_right (fun b s => c_n b + s) 0 l)%nat); split; intros; try discriminate; try lia; reflexivity.
Qed.
(** the standard deviation *)
Lemma Deviation sqrtf l m sd : (forall x y, x == y -> sqrtf x == sqrtf y) -> meanContinuum sqrtf l = (Some m, Some sd) ->
  let total (f : csums -> Q) := fold_right (fun b s => f b + s) 0 l in
  sd == sqrtf (total c_res / inject_Z (Z.of_nat (fold_right (fun b s => c_n b + s) 0 l)%nat)) * sqrtf (total c_w2) / total c_w.
Proof.
  intros SQ H total. unfold meanContinuum in H. destruct (mean_fold l (mkC 0 0 0 0 0)) as (A & B & C & D & E). cbn [c_sum c_w c_w2 c_res c_n] in A, B, C, D, E. set (t := fold_left _ l _) in *. destruct (Qeq_bool (c_w t) 0); [discriminate|]. destruct (Nat.leb 10 (c_n t)); [|discriminate]. assert (HS : sqrtf (c_res t / inject_Z (Z.of_nat (c_n t))) * sqrtf (c_w2 t) / c_w t = sd) by congruence. rewrite <- HS.
  fold (total c_res) in D. fold (total c_w2) in C. fold (total c_w) in B. rewrite E. rewrite Nat.add_0_l. rewrite (SQ (c_res t / _) (total c_res / inject_Z (Z.of_nat (fold_right (fun b s => c_n b + s) 0 l)%nat))); [|rewrite D, Qplus_0_l; reflexivity]. rewrite (SQ (c_w2 t) (total c_w2)) by (rewrite C; ring). setoid_replace (c_w t) with (total c_w) by (rewrite B; ring). reflexivity.
Qed.
Lemma Flux_snr sqrtf l : (forall x y, x == y -> sqrtf x == sqrtf y) -> let F := fold_right (fun b s => fst b + s) 0 l in let E := fold_right (fun b s => snd b + s) 0 l in
  (E <= 0 -> fluxAndSnr sqrtf l = None) /\ (0 < E -> exists f r, fluxAndSnr sqrtf l = Some (f, r) /\ f == F /\ r == Qabs F / sqrtf E).
Proof.
  intros SQ F E. unfold fluxAndSnr. assert (G : forall a, let t := fold_left (fun a b : Q * Q => (fst a + fst b, snd a + snd b)) l a in fst t == fst a + F /\ snd t == snd a + E).
  { unfold F, E. clear. induction l as [|b k IH]; intros a; cbn [fold_left fold_right]; [split; ring|]. destruct (IH (fst a + fst b, snd a + snd b)) as (A & B). cbn [fst snd] in A, B. cbv zeta in *. split; [rewrite A; ring|rewrite B; ring]. }
  destruct (G (0, 0)) as (A & B). cbn [fst snd] in A, B. set (t := fold_left _ l _) in *. split.
  - intros Z. destruct (Qle_bool (snd t) 0) eqn:Q; [reflexivity|]. exfalso. assert (snd t <= 0) as K by lra. apply Qle_bool_iff in K. congruence.
  - intros P. destruct (Qle_bool (snd t) 0) eqn:Q; [apply Qle_bool_iff in Q; exfalso; lra|]. exists (fst t), (Qabs (fst t) / sqrtf (snd t)). split; [reflexivity|]. assert (A' : fst t == F) by lra. assert (B' : snd t == E) by lra. split; [exact A'|]. rewrite (SQ _ _ B'), A'. reflexivity.
Qed.

Lemma NoDup_app_snoc' {A} (l : list A) x : NoDup l -> ~ In x l -> NoDup (l ++ [x]).
Proof. intros ND N. apply NoDup_rev in ND. rewrite <- (rev_involutive (l ++ [x])). apply NoDup_rev. rewrite rev_app_distr. cbn. constructor; [rewrite <- in_rev; exact N|exact ND]. Qed.
(** * the strong lines above a signal to noise ratio *)
Section Snr.
  Variable sqrtf : Q -> Q.
  Variable find : string -> option (nat * bool).
  Variable place : nat -> option (nat * nat).
  Variable di : list nat -> list nat -> bool -> res (Q * Q).
  Variable cut : Q.
  Definition passes (fe : Q * Q) : Prop := 0 < snd fe /\ cut < Qabs (fst fe) / sqrtf (snd fe).
  Lemma above_spec fe : above sqrtf cut fe = true <-> passes fe.
  Proof. unfold above, passes. rewrite andb_true_iff. destruct (Qltb_spec 0 (snd fe)); destruct (Qltb_spec cut (Qabs (fst fe) / sqrtf (snd fe))); intuition. Qed.
  Definition before (k : nat) (l : list (string * string * nat)) : list (nat * nat) := flat_map (fun x => match placed find place (fst (fst x)) with Some q => [q] | None => [] end) (filter (fun x => Nat.eqb (snd x) k) l).
  Lemma before_app k l x : before k (l ++ [x]) = (before k l ++ (if Nat.eqb (snd x) k then match placed find place (fst (fst x)) with Some q => [q] | None => [] end else []))%list.
  Proof. unfold before. rewrite filter_app, flat_map_app. f_equal. cbn [filter]. destruct (Nat.eqb (snd x) k); cbn [flat_map]; [rewrite app_nil_r|]; reflexivity. Qed.
  Definition tested (all : list (string * string * nat)) (j : nat) (l : list (nat * nat)) : Prop :=
    exists tag name k p, nth_error all j = Some (tag, name, k) /\ placed find place tag = Some p /\ l = match k with O => [p] | _ => before k (firstn (S j) all) end.
  Definition said (all : list (string * string * nat)) (m : nat) (name : string) : Prop :=
    exists j tag k l fe, (j < m)%nat /\ nth_error all j = Some (tag, name, k) /\ tested all j l /\ di (map fst l) (map snd l) (Nat.eqb k 0) = Ok fe /\ passes fe.
  Hypothesis DI : forall l b, l <> [] -> exists fe, di (map fst l) (map snd l) b = Ok fe.
  Lemma said_S all m name : said all (S m) name <-> said all m name \/ exists tag k l fe, nth_error all m = Some (tag, name, k) /\ tested all m l /\ di (map fst l) (map snd l) (Nat.eqb k 0) = Ok fe /\ passes fe.
  Proof.
    split.
    - intros (j & tag & k & l & fe & J & A & B & C & D). destruct (Nat.eq_dec j m) as [->|N]; [right; exists tag, k, l, fe; auto|left; exists j, tag, k, l, fe; split; [lia|auto]].
    - intros [(j & tag & k & l & fe & J & H)|(tag & k & l & fe & H)]; [exists j, tag, k, l, fe; split; [lia|exact H]|exists m, tag, k, l, fe; split; [lia|exact H]].
  Qed.
  Lemma loop all : forall post pre acc out, all = (pre ++ post)%list -> (forall k, (0 < k)%nat -> acc k = before k pre) -> NoDup out -> (forall n, In n out <-> said all (List.length pre) n) ->
    exists out', snr_loop sqrtf find place di cut post acc out = Ok out' /\ NoDup out' /\ forall n, In n out' <-> said all (List.length all) n.
  Proof.
    induction post as [|((tag & name) & k) post IH]; intros pre acc out E A ND S0; cbn [snr_loop].
    - exists out. split; [reflexivity|]. split; [exact ND|]. rewrite app_nil_r in E. subst pre. exact S0.
    - assert (NT : nth_error all (List.length pre) = Some (tag, name, k)) by (rewrite E, nth_error_app2, Nat.sub_diag by lia; reflexivity).
      assert (E2 : all = ((pre ++ [(tag, name, k)]) ++ post)%list) by (rewrite <- app_assoc; exact E).
      assert (LP : List.length (pre ++ [(tag, name, k)])%list = S (List.length pre)) by (rewrite app_length; cbn; lia).
      assert (FN : firstn (S (List.length pre)) all = (pre ++ [(tag, name, k)])%list) by (rewrite E2 at 1; rewrite <- LP, firstn_app, Nat.sub_diag, firstn_all; cbn [firstn]; apply app_nil_r).
      assert (SKIP : placed find place tag = None -> exists out', snr_loop sqrtf find place di cut post acc out = Ok out' /\ NoDup out' /\ forall n, In n out' <-> said all (List.length all) n).
      { intros PN. apply (IH (pre ++ [(tag, name, k)])%list acc out E2); [|exact ND|].
        - intros q Q. rewrite before_app. cbn [fst snd]. rewrite PN. rewrite (A q Q). destruct (Nat.eqb k q); rewrite app_nil_r; reflexivity.
        - intros n. rewrite LP, said_S, S0. split; [auto|]. intros [H|(t2 & k2 & l & fe & N2 & (t3 & n3 & k3 & p & N3 & P3 & _) & _)]; [exact H|]. rewrite NT in N3. inversion N3; subst. congruence. }
      destruct (find tag) as [[id em]|] eqn:F; [|apply SKIP; unfold placed; rewrite F; reflexivity]. destruct em; [|apply SKIP; unfold placed; rewrite F; reflexivity].
      destruct (place id) as [p|] eqn:P; [|apply SKIP; unfold placed; rewrite F; exact P].
      assert (PL : placed find place tag = Some p) by (unfold placed; rewrite F; exact P). clear SKIP.
      set (l := match k with O => [p] | S _ => (acc k ++ [p])%list end).
      assert (LN : l <> []) by (unfold l; destruct k; [discriminate|destruct (acc (S k)); discriminate]).
      assert (TL : l = match k with O => [p] | _ => before k (firstn (S (List.length pre)) all) end).
      { unfold l. destruct k as [|k]; [reflexivity|]. rewrite FN, before_app. cbn [fst snd]. rewrite Nat.eqb_refl, PL, (A (S k)) by lia. reflexivity. }
      destruct (DI l (Nat.eqb k 0) LN) as (fe & D). rewrite D. cbn [rbind].
      apply (IH (pre ++ [(tag, name, k)])%list); [exact E2| | |].
      + intros q Q. rewrite before_app. cbn [fst snd]. rewrite PL. rewrite Nat.eqb_sym. destruct (Nat.eqb_spec k q) as [<-|N]; [|rewrite app_nil_r; apply A; exact Q]. unfold l. destruct k as [|k]; [lia|]. rewrite (A (S k)) by lia. reflexivity.
      + destruct (above sqrtf cut fe); [|exact ND]. destruct (existsb (String.eqb name) out) eqn:X; [exact ND|]. apply NoDup_app_snoc'; [exact ND|]. intros C. assert (existsb (String.eqb name) out = true) by (apply existsb_exists; exists name; split; [exact C|apply String.eqb_refl]). congruence.
      + intros n. rewrite LP, said_S, <- S0.
        assert (NEW : (exists t2 k2 l2 fe2, nth_error all (List.length pre) = Some (t2, n, k2) /\ tested all (List.length pre) l2 /\ di (map fst l2) (map snd l2) (Nat.eqb k2 0) = Ok fe2 /\ passes fe2) <-> n = name /\ passes fe).
        { split.
          - intros (t2 & k2 & l2 & fe2 & N2 & (t3 & n3 & k3 & p3 & N3 & P3 & L3) & D2 & PS). rewrite NT in N2, N3. inversion N2; inversion N3; subst. rewrite PL in P3. inversion P3; subst p3. rewrite <- TL in D2. rewrite D in D2. inversion D2; subst. auto.
          - intros (-> & PS). exists tag, k, l, fe. split; [exact NT|]. split; [exists tag, name, k, p; auto|]. auto. }
        rewrite NEW. destruct (above sqrtf cut fe) eqn:AB.
        * apply above_spec in AB. destruct (existsb (String.eqb name) out) eqn:X.
          -- apply existsb_exists in X. destruct X as (y & Y & Z). apply String.eqb_eq in Z. subst y. split; [auto|]. intros [H|(-> & _)]; [exact H|exact Y].
          -- rewrite in_app_iff. cbn [In]. split; [intros [H|[->|[]]]; auto|intros [H|(-> & _)]; auto].
        * split; [auto|]. intros [H|(_ & PS)]; [exact H|]. apply above_spec in PS. congruence.
  Qed.
  Lemma Snr : exists out, getLinesAboveSNR sqrtf find place di cut = Ok out /\ NoDup out /\ forall name, In name out <->
    exists j tag k l fe, nth_error strong_tags j = Some (tag, name, k) /\ together find place j l /\ di (map fst l) (map snd l) (Nat.eqb k 0) = Ok fe /\ 0 < snd fe /\ cut < Qabs (fst fe) / sqrtf (snd fe).
  Proof.
    destruct (loop strong_tags strong_tags [] (fun _ => []) []) as (out & E & ND & S0); [reflexivity|reflexivity|constructor|intros n; split; [intros []|intros (j & tag & k & l & fe & J & _); cbn in J; lia]|].
    exists out. split; [exact E|]. split; [exact ND|]. intros name. rewrite S0. split.
    - intros (j & tag & k & l & fe & _ & N & T & D & P). exists j, tag, k, l, fe. split; [exact N|]. split; [exact T|]. split; [exact D|exact P].
    - intros (j & tag & k & l & fe & N & T & D & P). exists j, tag, k, l, fe. split; [apply nth_error_Some; congruence|]. split; [exact N|]. split; [exact T|]. split; [exact D|exact P].
  Qed.
End Snr.
Lemma Direct_error es offs axis n err b e idx sub_idx sub s l : mapr (vget es) idx = Ok l -> List.length idx = List.length sub_idx -> (2 <= n)%nat -> (b <= e < n)%nat ->
  exists F E, directIntegration es offs axis n err (as_Z [(b, e)]) idx sub_idx sub s = Ok (F, E) /\ E == sigma (fun i => (axis (S i) - axis i) * (axis (S i) - axis i) / 4 * (err i * err i + err (S i) * err (S i))) b (e - b).
Proof.
  intros M L N B. destruct (ContinuumUnder es offs (as_Z [(b, e)]) idx sub s l M) as (c & C & _). unfold directIntegration. rewrite L, Nat.eqb_refl. cbn [negb]. rewrite C.
  assert (LX : forall g : nat -> Q, List.length (map g (seq 0 n)) = n) by (intros; rewrite map_length, seq_length; reflexivity). cbn [as_Z map]. cbn [rbind fst snd].
  destruct (Integral (map axis (seq 0 n)) (map (minus_continuum [(Z.of_nat b, Z.of_nat e)] c (m_spc s)) (seq 0 n)) (map err (seq 0 n)) b e) as (F & E & I1 & _ & I2); [rewrite !LX; reflexivity|rewrite !LX; reflexivity|rewrite LX; exact N|rewrite LX; exact B|].
  exists F, E. split; [exact I1|]. rewrite I2. unfold err_sum. apply sigma_ext2. intros i I. rewrite !at_map by lia. field.
Qed.
Lemma Snr_names sqrtf find place di cut : (forall l b, l <> [] -> exists fe, di (map fst l) (map snd l) b = Ok fe) ->
  exists out, getLinesAboveSNR sqrtf find place di cut = Ok out /\ NoDup out /\ forall name, In name out <->
    exists tags m tag fe, In (name, tags) reported /\ nth_error tags m = Some tag /\ placed find place tag <> None /\
      (let l := all_placed find place (firstn (S m) tags) in di (map fst l) (map snd l) (Nat.eqb (List.length tags) 1)) = Ok fe /\ 0 < snd fe /\ cut < Qabs (fst fe) / sqrtf (snd fe).
Proof.
  intros DI. destruct (Snr sqrtf find place di cut DI) as (out & E & ND & I). exists out. split; [exact E|]. split; [exact ND|]. intros name. rewrite I. clear. split.
  - intros (j & tag & k & l & fe & N & (t2 & n2 & k2 & p & N2 & PL & L) & D & P). rewrite N in N2. inversion N2; subst t2 n2 k2.
    assert (G : forall tags m, In (name, tags) reported -> nth_error tags m = Some tag -> l = all_placed find place (firstn (S m) tags) -> Nat.eqb k 0 = Nat.eqb (List.length tags) 1 ->
      exists tags m tag fe, In (name, tags) reported /\ nth_error tags m = Some tag /\ placed find place tag <> None /\
      (let l := all_placed find place (firstn (S m) tags) in di (map fst l) (map snd l) (Nat.eqb (List.length tags) 1)) = Ok fe /\ 0 < snd fe /\ cut < Qabs (fst fe) / sqrtf (snd fe)).
    { intros tags m A B C F. exists tags, m, tag, fe. split; [exact A|]. split; [exact B|]. split; [congruence|]. cbv zeta. rewrite <- C, <- F. split; [exact D|exact P]. }
    unfold strong_tags in N. destruct j as [|[|[|[|[|[|[|[|j]]]]]]]]; cbn in N; [| | | | | | | |destruct j; discriminate]; inversion N; subst; clear N N2.
    + apply (G ["Halpha"%string] 0%nat); [cbn; auto 10|reflexivity| |reflexivity]. cbn. rewrite PL. reflexivity.
    + apply (G ["[OIII]a"%string] 0%nat); [cbn; auto 10|reflexivity| |reflexivity]. cbn. rewrite PL. reflexivity.
    + apply (G ["Hbeta"%string] 0%nat); [cbn; auto 10|reflexivity| |reflexivity]. cbn. rewrite PL. reflexivity.
    + apply (G ["LyAE"%string] 0%nat); [cbn; auto 10|reflexivity| |reflexivity]. cbn. rewrite PL. reflexivity.
    + apply (G ["[OII]3726"; "[OII]3729"]%string 0%nat); [cbn; auto 10|reflexivity| |reflexivity]. cbn. reflexivity.
    + apply (G ["[OII]3726"; "[OII]3729"]%string 1%nat); [cbn; auto 10|reflexivity| |reflexivity]. cbn. reflexivity.
    + apply (G ["[CIII]1907"; "[CIII]1909"]%string 0%nat); [cbn; auto 10|reflexivity| |reflexivity]. cbn. reflexivity.
    + apply (G ["[CIII]1907"; "[CIII]1909"]%string 1%nat); [cbn; auto 10|reflexivity| |reflexivity]. cbn. reflexivity.
  - intros (tags & m & tag & fe & R & T & PN & D & P). destruct (placed find place tag) as [p|] eqn:PL; [clear PN|congruence].
    assert (G : forall j k, nth_error strong_tags j = Some (tag, name, k) -> match k with O => [p] | _ => flat_map (fun x => match placed find place (fst (fst x)) with Some q => [q] | None => [] end) (filter (fun x => Nat.eqb (snd x) k) (firstn (S j) strong_tags)) end = all_placed find place (firstn (S m) tags) -> Nat.eqb k 0 = Nat.eqb (List.length tags) 1 ->
      exists j tag k l fe, nth_error strong_tags j = Some (tag, name, k) /\ together find place j l /\ di (map fst l) (map snd l) (Nat.eqb k 0) = Ok fe /\ 0 < snd fe /\ cut < Qabs (fst fe) / sqrtf (snd fe)).
    { intros j k A B C. exists j, tag, k, (all_placed find place (firstn (S m) tags)), fe. split; [exact A|]. split; [exists tag, name, k, p; auto|]. rewrite C. split; [exact D|exact P]. }
    cbn in R. destruct R as [R|[R|[R|[R|[R|[R|[]]]]]]]; inversion R; subst; clear R.
    + destruct m as [|[|m]]; cbn in T; [|discriminate|discriminate]. inversion T; subst. apply (G 0%nat 0%nat); [reflexivity| |reflexivity]. cbn. rewrite PL. reflexivity.
    + destruct m as [|[|m]]; cbn in T; [|discriminate|discriminate]. inversion T; subst. apply (G 1%nat 0%nat); [reflexivity| |reflexivity]. cbn. rewrite PL. reflexivity.
    + destruct m as [|[|m]]; cbn in T; [|discriminate|discriminate]. inversion T; subst. apply (G 2%nat 0%nat); [reflexivity| |reflexivity]. cbn. rewrite PL. reflexivity.
    + destruct m as [|[|m]]; cbn in T; [|discriminate|discriminate]. inversion T; subst. apply (G 3%nat 0%nat); [reflexivity| |reflexivity]. cbn. rewrite PL. reflexivity.
    + destruct m as [|[|[|m]]]; cbn in T; [| |discriminate|discriminate]; inversion T; subst; [apply (G 4%nat 1%nat)|apply (G 5%nat 1%nat)]; reflexivity.
    + destruct m as [|[|[|m]]]; cbn in T; [| |discriminate|discriminate]; inversion T; subst; [apply (G 6%nat 2%nat)|apply (G 7%nat 2%nat)]; reflexivity.
Qed.
Lemma Component raw icont inoc c s : let s' := setContinuumComponent raw icont inoc c s in
  (c = "noContinuum"%string -> m_model s' = (fun _ => 0) /\ m_cont s' = (fun _ => 0) /\ m_spc s' = raw /\ m_noc s' = raw) /\
  (c = "fromSpectrum"%string -> m_model s' = icont /\ m_cont s' = icont /\ m_spc s' = raw /\ m_noc s' = inoc) /\
  (c = "tplFit"%string \/ c = "tplFitAuto"%string -> m_model s' = (fun _ => 0) /\ m_cont s' = (fun _ => 0) /\ m_spc s' = raw /\ m_noc s' = m_noc s) /\
  (c <> "noContinuum"%string -> c <> "fromSpectrum"%string -> c <> "tplFit"%string -> c <> "tplFitAuto"%string -> s' = s).
Proof.
  intros s'. subst s'. unfold setContinuumComponent. split; [intros ->; auto|]. split; [intros ->; auto|]. split; [intros [-> | ->]; auto|]. intros A B C D. apply String.eqb_neq in A, B, C, D. rewrite A, B, C, D. reflexivity.
Qed.
Lemma Nothing enhance s t : (0 < enhance -> nothingUnderLines enhance s t == m_spc s t - enhance * (m_model s t - m_cont s t)) /\ (~ 0 < enhance -> nothingUnderLines enhance s t == m_spc s t - (m_model s t - m_cont s t)).
Proof. unfold nothingUnderLines. destruct (Qltb_spec 0 enhance); split; intros; try contradiction; ring. Qed.
Lemma Removed_none_perfect es axis s rs : lit_windows None es = as_Z rs -> forall t, under (as_Z rs) t -> m_spc s t == m_cont s t + lines None es (m_cont s t) t -> m_model s t == m_spc s t ->
  fst (linesRemoved es None axis None s) t == m_cont s t + (9 # 10) * weighting axis t (as_Z rs) * lines None es (m_cont s t) t.
Proof. intros W t U P M. destruct (Removed es None axis None s rs W t) as (_ & B). rewrite (B U), M, P. cbn [offset_at]. ring. Qed.
Lemma Direct_throws es offs axis n err rs idx sub_idx sub s : List.length idx <> List.length sub_idx \/ rs = [] -> directIntegration es offs axis n err rs idx sub_idx sub s = Throw INTERNAL_ERROR.
Proof. intros H. unfold directIntegration. destruct (Nat.eqb_spec (List.length idx) (List.length sub_idx)); [|reflexivity]. destruct H as [H| ->]; [contradiction|reflexivity]. Qed.
Lemma WeightedSum offs axis s poly b ws : let g := fun i => m_cont s i + match offs with Some _ => poly (axis i) | None => 0 end in
  let r := continuumWeightedSum offs axis s poly b ws in let w := fun i => nth (i - b) ws 0 in let n := List.length ws in
  fst (fst r) == sigma (fun i => w i * g i) b n /\ snd (fst r) == sigma w b n /\ snd r == sigma (fun i => w i * w i) b n.
Proof. intros g r w n. subst r. unfold continuumWeightedSum. destruct (wsum_spec offs axis s poly ws b (0, 0, 0)) as (A & B & C). cbn [fst snd] in A, B, C. split; [rewrite A|split; [rewrite B|rewrite C]]; unfold at_, w, g, n; ring. Qed.
