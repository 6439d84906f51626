(** C69, proofs: an exact solver exists; the joint linear fit. *)
From Coq Require Import Qabs Lqa.
From Verif Require Import Base MeikModel SvdModel SvdSpec.
Open Scope Q_scope.

(** * least squares by successive orthogonalisation *)
Section GS.
  Variable rows : list obs.
  Fixpoint ip_on (l : list obs) (u v : obs -> Q) : Q := match l with [] => 0 | r :: t => o_w r * (u r * v r) + ip_on t u v end.
  Definition ip := ip_on rows.
  Fixpoint comb (cols : list (obs -> Q)) (c : list Q) (r : obs) : Q := match cols, c with f :: cols', x :: c' => x * f r + comb cols' c' r | _, _ => 0 end.
  Fixpoint minus_scaled (a : list Q) (t : Q) (b : list Q) : list Q := match a, b with x :: a', y :: b' => Qred (x - t * y) :: minus_scaled a' t b' | _, _ => [] end.
  Fixpoint gs (cols : list (obs -> Q)) (y : obs -> Q) : list Q :=
    match cols with
    | [] => []
    | v :: rest =>
      let cy := gs rest y in let cv := gs rest v in
      let u := fun r => v r - comb rest cv r in
      let d := Qred (ip u u) in
      if Qeq_bool d 0 then 0 :: cy else let t := Qred (ip (fun r => y r - comb rest cy r) u / d) in t :: minus_scaled cy t cv
    end.
  Lemma gs_len cols : forall y, length (gs cols y) = length cols.
  Proof.
    induction cols as [|v rest IH]; intros y; [reflexivity|]. cbn [gs]. destruct (Qeq_bool _ 0); cbn [length]; [rewrite IH; reflexivity|].
    f_equal. assert (G : forall a t b, length a = length b -> length (minus_scaled a t b) = length a). { induction a as [|x a I]; intros t [|z b] L; try discriminate; [reflexivity|]. cbn [minus_scaled length]. rewrite I; [reflexivity|cbn in L; lia]. }
    rewrite G; rewrite !IH; reflexivity.
  Qed.
  Lemma comb_minus cols : forall a b t r, length a = length cols -> length b = length cols -> comb cols (minus_scaled a t b) r == comb cols a r - t * comb cols b r.
  Proof.
    induction cols as [|f cols IH]; intros [|x a] [|y b] t r La Lb; try discriminate; cbn [minus_scaled comb]; [ring|]. rewrite IH; [rewrite Qred_correct; ring|cbn in La; lia|cbn in Lb; lia].
  Qed.
  Lemma ip_ext l u u' v v' : (forall r, In r l -> u r == u' r) -> (forall r, In r l -> v r == v' r) -> ip_on l u v == ip_on l u' v'.
  Proof. induction l as [|r t IH]; intros U V; [reflexivity|]. cbn [ip_on]. rewrite (U r), (V r), IH; [reflexivity|intros; apply U; right; assumption|intros; apply V; right; assumption|left; reflexivity|left; reflexivity]. Qed.
  Lemma ip_lin l u v w t : ip_on l (fun r => u r - t * v r) w == ip_on l u w - t * ip_on l v w.
  Proof. induction l as [|r k IH]; cbn [ip_on]; [ring|]. rewrite IH. ring. Qed.
  Lemma ip_add_r l u v w : ip_on l u (fun r => v r + w r) == ip_on l u v + ip_on l u w.
  Proof. induction l as [|r k IH]; cbn [ip_on]; [ring|]. rewrite IH. ring. Qed.
  Lemma ip_scal_r l u v t : ip_on l u (fun r => t * v r) == t * ip_on l u v.
  Proof. induction l as [|r k IH]; cbn [ip_on]; [ring|]. rewrite IH. ring. Qed.
  Lemma ip_zero_r l u : ip_on l u (fun _ => 0) == 0.
  Proof. induction l as [|r k IH]; cbn [ip_on]; [reflexivity|]. rewrite IH. ring. Qed.
  Lemma sq0 (x : Q) : 0 <= x * x. Proof. destruct (Qlt_le_dec x 0); [setoid_replace (x * x) with ((- x) * (- x)) by ring; apply Qmult_le_0_compat; lra|apply Qmult_le_0_compat; lra]. Qed.
  Lemma ip_pos l u : (forall r, In r l -> 0 <= o_w r) -> 0 <= ip_on l u u.
  Proof.
    induction l as [|r t IH]; intros W; cbn [ip_on]; [lra|]. assert (0 <= o_w r * (u r * u r)) by (apply Qmult_le_0_compat; [apply W; left; reflexivity|apply sq0]).
    assert (0 <= ip_on t u u) by (apply IH; intros; apply W; right; assumption). lra.
  Qed.
  Lemma ip_null l u : (forall r, In r l -> 0 <= o_w r) -> ip_on l u u == 0 -> forall v, ip_on l u v == 0.
  Proof.
    induction l as [|r t IH]; intros W Z v; cbn [ip_on] in *; [reflexivity|].
    assert (A : 0 <= o_w r * (u r * u r)) by (apply Qmult_le_0_compat; [apply W; left; reflexivity|apply sq0]).
    assert (B : 0 <= ip_on t u u) by (apply ip_pos; intros; apply W; right; assumption).
    rewrite IH; [|intros; apply W; right; assumption|lra]. assert (C : o_w r * (u r * u r) == 0) by lra.
    assert (D : o_w r == 0 \/ u r == 0). { apply Qmult_integral in C. destruct C as [C|C]; [left; exact C|right]. apply Qmult_integral in C. destruct C; assumption. }
    destruct D as [D|D]; rewrite D; ring.
  Qed.
  Hypothesis W : forall r, In r rows -> 0 <= o_w r.
  Lemma orth_comb u cols : (forall f, In f cols -> ip u f == 0) -> forall c, ip u (comb cols c) == 0.
  Proof.
    unfold ip. induction cols as [|f cols IH]; intros H c.
    - rewrite (ip_ext rows u u _ (fun _ => 0)); [apply ip_zero_r|reflexivity|reflexivity].
    - destruct c as [|x c]; [rewrite (ip_ext rows u u _ (fun _ => 0)); [apply ip_zero_r|reflexivity|reflexivity]|].
      rewrite (ip_ext rows u u _ (fun r => x * f r + comb cols c r)); [|reflexivity|reflexivity]. rewrite ip_add_r, ip_scal_r, IH by (intros g G; apply H; right; exact G).
      rewrite (H f) by (left; reflexivity). ring.
  Qed.
  Lemma gs_orth cols : forall y f, In f cols -> ip (fun r => y r - comb cols (gs cols y) r) f == 0.
  Proof.
    induction cols as [|v rest IH]; intros y f F; [destruct F|]. cbn [gs]. set (cy := gs rest y). set (cv := gs rest v). set (u := fun r => v r - comb rest cv r). set (d := Qred (ip u u)). assert (Dd : d == ip u u) by apply Qred_correct.
    set (rr := fun r => y r - comb rest cy r).
    assert (U : forall g, In g rest -> ip u g == 0) by (intros g G; apply IH; exact G).
    assert (R : forall g, In g rest -> ip rr g == 0) by (intros g G; apply IH; exact G).
    assert (V : forall z, (forall g, In g rest -> ip z g == 0) -> ip z v == ip z u).
    { intros z Hz. unfold ip. rewrite (ip_ext rows z z v (fun r => u r + comb rest cv r)); [|reflexivity|intros r _; unfold u; ring]. rewrite ip_add_r. fold (ip z (comb rest cv)). rewrite (orth_comb z rest Hz cv). fold (ip z u). ring. }
    destruct (Qeq_bool d 0) eqn:D.
    - apply Qeq_bool_eq in D. rewrite Dd in D. assert (E : forall g, ip (fun r => y r - comb (v :: rest) (0 :: cy) r) g == ip rr g). { intros g. apply ip_ext; [|reflexivity]. intros r _. unfold rr. cbn [comb]. ring. }
      rewrite E. destruct F as [<-|F]; [|apply R; exact F]. rewrite (V rr R). transitivity (ip u rr); [unfold ip; clear; induction rows as [|r t I]; cbn [ip_on]; [reflexivity|rewrite I; ring]|]. apply ip_null; [exact W|exact D].
    - assert (Dn : ~ d == 0) by (intros C; apply Qeq_bool_iff in C; congruence). set (t := Qred (ip rr u / d)). assert (Tt : t == ip rr u / d) by apply Qred_correct.
      assert (E : forall g, ip (fun r => y r - comb (v :: rest) (t :: minus_scaled cy t cv) r) g == ip rr g - t * ip u g).
      { intros g. unfold ip. rewrite <- ip_lin. apply ip_ext; [|reflexivity]. intros r _. unfold rr, u. cbn [comb]. rewrite comb_minus; [ring|apply gs_len|apply gs_len]. }
      rewrite E. destruct F as [<-|F]; [|rewrite (R f F), (U f F); ring]. rewrite (V rr R), (V u U), Tt, <- Dd. field. exact Dn.
  Qed.
  (** the residual orthogonal to the columns has the smallest norm *)
  Lemma gs_min cols y c : ip (fun r => y r - comb cols (gs cols y) r) (fun r => y r - comb cols (gs cols y) r) <= ip (fun r => y r - comb cols c r) (fun r => y r - comb cols c r).
  Proof.
    set (res := fun r => y r - comb cols (gs cols y) r). pose proof (orth_comb res cols (gs_orth cols y)) as O. set (dd := fun r => comb cols (gs cols y) r + -1 * comb cols c r).
    assert (Hd : ip res dd == 0). { unfold dd, ip. rewrite ip_add_r, ip_scal_r. fold (ip res (comb cols (gs cols y))). fold (ip res (comb cols c)). rewrite (O (gs cols y)), (O c). ring. }
    assert (E : ip (fun r => y r - comb cols c r) (fun r => y r - comb cols c r) == ip res res + 2 * ip res dd + ip dd dd).
    { rewrite (ip_ext rows _ (fun r => res r + dd r) _ (fun r => res r + dd r)); [|intros r _; unfold res, dd; ring|intros r _; unfold res, dd; ring].
      unfold ip. clear. induction rows as [|r t I]; cbn [ip_on]; [ring|]. rewrite I. ring. }
    rewrite E, Hd. pose proof (ip_pos rows dd W) as P. fold (ip dd dd) in P. lra.
  Qed.
End GS.
(** an exact solver (without the covariance, which is not used) *)
Definition columns (k : nat) : list (obs -> Q) := map (fun j r => nth j (o_row r) 0) (seq 0 k).
Definition gs_solve (k : nat) (rows : list obs) : list Q * list Q := (map Qred (gs rows (columns k) o_y), repeat 0 k).
Lemma dot_comb (r : obs) : forall c row a, o_row r = (a ++ row)%list -> length c = length row ->
  comb (map (fun j (r : obs) => nth j (o_row r) 0) (seq (length a) (length row))) c r == dot row c.
Proof.
  induction c as [|x c IH]; intros [|y row] a E L; try discriminate; [reflexivity|]. cbn [length seq map comb dot]. rewrite E, nth_middle.
  rewrite <- (IH row (a ++ [y])%list); [|rewrite E, <- app_assoc; reflexivity|cbn in L; lia]. rewrite app_length. cbn [length]. rewrite Nat.add_1_r. ring.
Qed.
Lemma dot_columns (r : obs) k c : length (o_row r) = k -> length c = k -> comb (columns k) c r == dot (o_row r) c.
Proof. intros L1 L2. unfold columns. rewrite <- (dot_comb r c (o_row r) [] eq_refl) by congruence. cbn [length]. rewrite L1. reflexivity. Qed.
Lemma squares_ip k rows c : (forall r, In r rows -> length (o_row r) = k) -> length c = k ->
  squares rows c == ip_on rows (fun r => o_y r - comb (columns k) c r) (fun r => o_y r - comb (columns k) c r).
Proof.
  intros L Lc. assert (G : forall l, (forall r, In r l -> length (o_row r) = k) -> squares l c == ip_on l (fun r => o_y r - comb (columns k) c r) (fun r => o_y r - comb (columns k) c r)).
  { induction l as [|r t IH]; intros H; cbn [squares ip_on]; [reflexivity|]. rewrite IH by (intros; apply H; right; assumption). rewrite (dot_columns r k c (H r (or_introl eq_refl)) Lc). reflexivity. }
  apply G. exact L.
Qed.
Lemma dot_red row : forall c, dot row (map Qred c) == dot row c.
Proof. induction row as [|x row IH]; intros [|y c]; cbn [map dot]; try reflexivity. rewrite IH, Qred_correct. reflexivity. Qed.
Lemma squares_red rows c : squares rows (map Qred c) == squares rows c.
Proof. induction rows as [|r t IH]; cbn [squares]; [reflexivity|]. rewrite IH, dot_red. reflexivity. Qed.
Lemma gs_exact : exact gs_solve.
Proof.
  intros k rows H. unfold gs_solve. cbn [fst snd]. split; [rewrite map_length, gs_len; unfold columns; rewrite map_length, seq_length; reflexivity|]. split; [apply repeat_length|].
  intros c Lc. rewrite squares_red. assert (Lr : forall r, In r rows -> length (o_row r) = k) by (intros r R; apply H; exact R).
  rewrite (squares_ip k rows c Lr Lc). rewrite (squares_ip k rows _ Lr) by (rewrite gs_len; unfold columns; rewrite map_length, seq_length; reflexivity).
  apply (gs_min rows). intros r R. apply H. exact R.
Qed.

(** * states *)
Lemma amp_set s e a d e' : s_amp (SetElementAmplitude s e a d) e' = if Nat.eqb e' e then a else s_amp s e'. Proof. reflexivity. Qed.
Lemma only_refl es s : only es s s. Proof. intros e _. auto. Qed.
Lemma only_trans es s1 s2 s3 : only es s1 s2 -> only es s2 s3 -> only es s1 s3.
Proof. intros A B e N. destruct (A e N) as (A1 & A2 & A3). destruct (B e N) as (B1 & B2 & B3). split; [|split]; congruence. Qed.
Lemma only_incl es es' s s' : (forall e, In e es -> In e es') -> only es s s' -> only es' s s'.
Proof. intros I O e N. apply O. intros C. apply N. apply I. exact C. Qed.
Lemma only_set es s e a d : In e es -> only es s (SetElementAmplitude s e a d).
Proof. intros I e' N. assert (D : e' <> e) by (intros ->; contradiction). cbn. unfold upd. destruct (Nat.eqb_spec e' e); [contradiction|auto]. Qed.
Lemma only_poly es s e p : In e es -> only es s (SetPolynomCoeffs s e p).
Proof. intros I e' N. assert (D : e' <> e) by (intros ->; contradiction). cbn. unfold upd. destruct (Nat.eqb_spec e' e); [contradiction|auto]. Qed.
Lemma only_fold {A} es (f : sst -> A -> sst) l : (forall s x, In x l -> only es s (f s x)) -> forall s, only es s (fold_left f l s).
Proof. induction l as [|x t IH]; intros H s; cbn [fold_left]; [apply only_refl|]. eapply only_trans; [apply H; left; reflexivity|apply IH; intros; apply H; right; assumption]. Qed.
Lemma set_poly_spec es p : forall s, (forall e, s_amp (set_poly s es p) e = s_amp s e) /\ (forall e, s_std (set_poly s es p) e = s_std s e) /\ (forall e, In e es -> s_poly (set_poly s es p) e = p) /\ (forall e, ~ In e es -> s_poly (set_poly s es p) e = s_poly s e) /\ s_off (set_poly s es p) = s_off s.
Proof.
  unfold set_poly. induction es as [|x t IH]; intros s; cbn [fold_left]; [repeat split; intros e []|]. destruct (IH (SetPolynomCoeffs s x p)) as (A & B & C & D & O). split; [intros e; rewrite A; reflexivity|]. split; [intros e; rewrite B; reflexivity|]. split; [|split].
  - intros e I. destruct (in_dec Nat.eq_dec e t) as [T|T]; [apply C; exact T|]. rewrite (D e T). destruct I as [<-|I]; [|contradiction]. cbn. unfold upd. rewrite Nat.eqb_refl. reflexivity.
  - intros e N. rewrite D by (intros T; apply N; right; exact T). cbn. unfold upd. destruct (Nat.eqb_spec e x) as [->|]; [exfalso; apply N; left; reflexivity|reflexivity].
  - exact O.
Qed.
Lemma set_all_spec fit : forall s a sd, length a = length fit -> length sd = length fit -> NoDup fit ->
  map (s_amp (set_all s fit a sd)) fit = map Some a /\ map (s_std (set_all s fit a sd)) fit = map Some sd /\ only fit s (set_all s fit a sd) /\ (forall e, s_poly (set_all s fit a sd) e = s_poly s e) /\ s_off (set_all s fit a sd) = s_off s.
Proof.
  induction fit as [|e fit IH]; intros s [|x a] [|d sd] La Ld ND; try discriminate; cbn [set_all map]; [repeat split; auto|]. inversion ND as [|? ? Ne NDt]; subst.
  destruct (IH (SetElementAmplitude s e (Some x) (Some d)) a sd) as (A & B & C & D & O); [cbn in La; lia|cbn in Ld; lia|exact NDt|].
  destruct (C e Ne) as (C1 & C2 & C3). split; [|split; [|split; [|split]]].
  - rewrite A, C1. cbn. unfold upd. rewrite Nat.eqb_refl. reflexivity.
  - rewrite B, C2. cbn. unfold upd. rewrite Nat.eqb_refl. reflexivity.
  - eapply only_trans; [apply only_set; left; reflexivity|]. apply (only_incl fit); [intros; right; assumption|exact C].
  - intros e'. rewrite D. reflexivity.
  - rewrite O. reflexivity.
Qed.
Lemma mapr_vget (es idx : list nat) : (forall i, In i idx -> (i < length es)%nat) -> exists fit, mapr (vget es) idx = Ok fit /\ Forall2 (fun i e => nth_error es i = Some e) idx fit.
Proof.
  induction idx as [|i t IH]; intros B; cbn [mapr]; [exists []; auto|]. destruct (nth_error_lt es i (B i (or_introl eq_refl))) as (e & N). unfold vget at 1. rewrite N. cbn [rbind].
  destruct IH as (fit & -> & F); [intros; apply B; right; assumption|]. exists (e :: fit). split; [reflexivity|constructor; assumption].
Qed.

(** * the linear fit *)
Section Lin.
  Variables (axis flux err : nat -> Q) (col : option nat -> nat -> nat -> Q) (supp : list nat -> list nat) (solve : nat -> list obs -> list Q * list Q) (sqrtf : Q -> Q) (dblmin : Q) (offs : bool).
  Hypothesis EX : exact solve.
  Hypothesis MIN : 0 < dblmin.
  Lemma maxabs_pos xs : 0 < maxabs flux dblmin xs.
  Proof.
    unfold maxabs. assert (G : forall l m, 0 < m -> 0 < fold_left (fun m i => if Qltb m (Qabs (flux i)) then Qabs (flux i) else m) l m).
    { induction l as [|i t IH]; intros m P; cbn [fold_left]; [exact P|]. apply IH. destruct (Qltb_spec m (Qabs (flux i))) as [L|L]; [lra|exact P]. }
    apply G. exact MIN.
  Qed.
  Definition nddl (fit : list nat) : nat := (length fit + if offs then 3 else 0)%nat.
  Definition unpack (nf : Q) (n : nat) (c : list Q) : list Q * (Q * Q * Q) :=
    (map (fun v => v / nf) (firstn n c), if offs then (nth n c 0 / nf, nth (n + 1) c 0 / nf, nth (n + 2) c 0 / nf) else no_poly).
  Definition pack (nf : Q) (a : list Q) (p : Q * Q * Q) : list Q := (map (fun v => v * nf) a ++ if offs then [fst (fst p) * nf; snd (fst p) * nf; snd p * nf] else [])%list.
  Lemma dot_app u u' : forall v v', length u = length v -> dot (u ++ u') (v ++ v') == dot u v + dot u' v'.
  Proof. induction u as [|x u IH]; intros [|y v] v' L; try discriminate; cbn [app dot]; [ring|]. rewrite IH; [ring|cbn in L; lia]. Qed.
  Lemma dot_lines o fit i : forall a nf, length a = length fit -> dot (map (fun e => col o e i) fit) (map (fun v => v * nf) a) == nf * lines_at (col o) fit a i.
  Proof. induction fit as [|e fit IH]; intros [|x a] nf L; try discriminate; cbn [map dot lines_at]; [ring|]. rewrite IH; [ring|cbn in L; lia]. Qed.
  Lemma squares_chi2 o fit nf xs a p : ~ nf == 0 -> (forall i, In i xs -> ~ err i == 0) -> length a = length fit -> (offs = false -> p = no_poly) ->
    squares (map (make_row axis flux err col offs o fit nf) xs) (pack nf a p) == chi2 axis flux err (col o) fit a p xs.
  Proof.
    intros N E L P. induction xs as [|i t IH]; cbn [map squares chi2]; [reflexivity|]. rewrite IH by (intros; apply E; right; assumption). cbn [make_row o_w o_y o_row].
    assert (D : dot (map (fun e => col o e i) fit ++ (if offs then [1; axis i; axis i * axis i] else [])) (pack nf a p) == nf * (lines_at (col o) fit a i + poly_at p (axis i))).
    { unfold pack. rewrite dot_app by (rewrite !map_length; congruence). rewrite dot_lines by exact L. unfold poly_at. destruct offs; cbn [dot]; [ring|]. rewrite (P eq_refl). cbn [no_poly fst snd]. ring. }
    rewrite D. assert (Ei : ~ err i == 0) by (apply E; left; reflexivity). apply Qplus_comp; [|reflexivity]. field. split; assumption.
  Qed.
  Lemma pack_unpack nf n c : ~ nf == 0 -> length c = (n + if offs then 3 else 0)%nat -> Forall2 Qeq (pack nf (fst (unpack nf n c)) (snd (unpack nf n c))) c.
  Proof.
    intros N L. enough (H : Forall2 Qeq (pack nf (fst (unpack nf n c)) (snd (unpack nf n c))) (firstn n c ++ skipn n c)) by (rewrite firstn_skipn in H; exact H). unfold pack, unpack. cbn [fst snd]. apply Forall2_app.
    - rewrite map_map. generalize (firstn n c). induction l as [|x l IH]; cbn [map]; constructor; [field; exact N|exact IH].
    - assert (LS : length (skipn n c) = if offs then 3%nat else 0%nat) by (rewrite skipn_length; lia). destruct offs.
      + assert (NT : forall j, nth (n + j) c 0 = nth j (skipn n c) 0). { intros j. rewrite <- (firstn_skipn n c) at 1. rewrite app_nth2; rewrite firstn_length_le by lia; [f_equal; lia|lia]. }
        rewrite <- (Nat.add_0_r n) at 1. rewrite !NT. destruct (skipn n c) as [|x [|y [|z [|w l]]]]; try discriminate. cbn [nth fst snd]. repeat constructor; field; exact N.
      + destruct (skipn n c); [constructor|discriminate].
  Qed.
  Lemma dot_ext row : forall c c', Forall2 Qeq c c' -> dot row c == dot row c'.
  Proof. induction row as [|x row IH]; intros c c' F; [reflexivity|]. destruct F as [|y y' c c' E F]; [reflexivity|]. cbn [dot]. rewrite (IH c c' F), E. reflexivity. Qed.
  Lemma squares_ext rows c c' : Forall2 Qeq c c' -> squares rows c == squares rows c'.
  Proof. intros F. induction rows as [|r t IH]; cbn [squares]; [reflexivity|]. rewrite IH, (dot_ext _ c c' F). reflexivity. Qed.
  Lemma Linear o es idx s : es <> [] -> supp es <> [] -> NoDup es -> NoDup idx -> (forall i, In i idx -> (i < length es)%nat) -> (forall i, In i (supp es) -> ~ err i == 0) ->
    exists fit, (match idx with [] => fit = es | _ => Forall2 (fun i e => nth_error es i = Some e) idx fit end) /\
    ((nddl fit <= length (supp es))%nat -> exists r a p, fitAmplitudesLinSolve axis flux err col supp solve sqrtf dblmin offs o es idx s = Ok r /\
      best_joint axis flux err (col o) offs fit (supp es) a p /\ r_amps r = a /\ length (r_errs r) = length a /\ has_amps (r_s r) fit a /\ map (s_std (r_s r)) fit = r_errs r /\ (r_pos r = true <-> forall v, In v a -> 0 <= v) /\
      (forall e, ~ In e fit -> s_amp (r_s r) e = s_amp s e /\ s_std (r_s r) e = s_std s e) /\
      (forall e, In e es -> s_poly (r_s r) e = if offs then p else s_poly s e) /\ (forall e, ~ In e es -> s_poly (r_s r) e = s_poly s e) /\ s_off (r_s r) = s_off s) /\
    ((length (supp es) < nddl fit)%nat -> exists r, fitAmplitudesLinSolve axis flux err col supp solve sqrtf dblmin offs o es idx s = Ok r /\ r_pos r = true /\
      (forall e, In e es -> s_amp (r_s r) e = Some 0 /\ s_std (r_s r) e = None) /\ (forall e, ~ In e es -> s_amp (r_s r) e = s_amp s e /\ s_std (r_s r) e = s_std s e /\ s_poly (r_s r) e = s_poly s e) /\
      (forall e, In e es -> s_poly (r_s r) e = if offs then no_poly else s_poly s e) /\ s_off (r_s r) = s_off s).
  Proof.
    intros NE NX ND NDi BI ER.
    assert (FT : exists fit, (match idx with [] => Ok es | _ => mapr (vget es) idx end) = Ok fit /\ (match idx with [] => fit = es | _ => Forall2 (fun i e => nth_error es i = Some e) idx fit end) /\ NoDup fit /\ forall e, In e fit -> In e es).
    { destruct idx as [|i t]; [exists es; repeat split; auto|]. destruct (mapr_vget es (i :: t) BI) as (fit & E & F). exists fit. split; [exact E|]. split; [exact F|]. split.
      - clear E BI. revert NDi. induction F as [|j e js fs J F IH]; intros NDj; constructor; inversion NDj as [|? ? Nj NDt]; subst; [|apply IH; exact NDt].
        intros I. apply Nj. clear - I F J ND. induction F as [|k e' ks fs K F IH]; [destruct I|]. destruct I as [->|I]; [left|right; apply IH; exact I].
        apply (proj1 (NoDup_nth_error es) ND); [apply nth_error_Some; congruence|congruence].
      - intros e I. clear - F I. induction F as [|k e' ks fs K F IH]; [destruct I|]. destruct I as [->|I]; [eapply nth_error_In; exact K|apply IH; exact I]. }
    destruct FT as (fit & EF & FI & NDf & FE). exists fit. split; [exact FI|]. unfold fitAmplitudesLinSolve. rewrite EF. destruct es as [|e0 es0]; [congruence|]. set (es := e0 :: es0) in *.
    destruct (supp es) as [|x0 xs0] eqn:SX; [congruence|]. set (xs := x0 :: xs0) in *. cbn [rbind]. fold (nddl fit). split.
    - intros LE. destruct (Nat.ltb_spec (length xs) (nddl fit)) as [C|_]; [lia|]. set (nf := 1 / maxabs flux dblmin xs). set (rows := map (make_row axis flux err col offs o fit nf) xs).
      assert (NF : ~ nf == 0). { unfold nf. pose proof (maxabs_pos xs) as P. intros C. assert (X : (1 / maxabs flux dblmin xs) * maxabs flux dblmin xs == 1) by (field; lra). rewrite C in X. lra. }
      assert (HR : forall r, In r rows -> 0 <= o_w r /\ length (o_row r) = nddl fit).
      { intros r R. apply in_map_iff in R. destruct R as (i & <- & _). cbn [make_row o_w o_row]. split.
        - assert (Q0 : 0 <= err i * nf * (err i * nf)) by apply sq0. unfold Qdiv. rewrite Qmult_1_l. apply Qinv_le_0_compat. exact Q0.
        - rewrite app_length, map_length. unfold nddl. destruct offs; reflexivity. }
      destruct (EX (nddl fit) rows HR) as (L1 & L2 & BEST). destruct (solve (nddl fit) rows) as [c var] eqn:SV. cbn [fst snd] in L1, L2, BEST.
      set (a := map (fun v => v / nf) (firstn (length fit) c)). set (p := if offs then (nth (length fit) c 0 / nf, nth (length fit + 1) c 0 / nf, nth (length fit + 2) c 0 / nf) else no_poly).
      assert (La : length a = length fit) by (unfold a; rewrite map_length, firstn_length_le; [reflexivity|unfold nddl in L1; lia]).
      set (sd := map (fun v => sqrtf v / nf) (firstn (length fit) var)). assert (Ld : length sd = length fit) by (unfold sd; rewrite map_length, firstn_length_le; [reflexivity|unfold nddl in L2; lia]).
      set (s1 := fold_left (fun s e => SetElementAmplitude s e (Some 1) (Some 0)) fit s). eexists. exists a, p. split; [reflexivity|]. cbn [r_amps r_errs r_s r_pos].
      assert (S1 : only fit s s1) by (apply only_fold; intros; apply only_set; assumption).
      assert (S1p : forall e, s_poly s1 e = s_poly s e). { unfold s1. clear. revert s. induction fit as [|x t IH]; intros s e; cbn [fold_left]; [reflexivity|]. rewrite IH. reflexivity. }
      assert (S1o : s_off s1 = s_off s). { unfold s1. clear. revert s. induction fit as [|x t IH]; intros s; cbn [fold_left]; [reflexivity|]. rewrite IH. reflexivity. }
      destruct (set_all_spec fit s1 a sd La Ld NDf) as (SA & SD & SO & SP & SOF).
      split; [|split; [reflexivity|split; [rewrite map_length; congruence|split; [|split; [|split; [|split; [|split; [|split]]]]]]]].
      + split; [exact La|]. split; [intros Z; unfold p; rewrite Z; reflexivity|]. intros b q Lb Hq.
        rewrite <- (squares_chi2 o fit nf xs a p NF ER La) by (intros Z; unfold p; rewrite Z; reflexivity). rewrite <- (squares_chi2 o fit nf xs b q NF ER Lb Hq).
        assert (PU : Forall2 Qeq (pack nf a p) c) by (apply (pack_unpack nf (length fit) c NF L1)). rewrite (squares_ext _ _ _ PU). apply BEST. unfold pack, nddl. rewrite app_length, map_length, Lb. destruct offs; reflexivity.
      + unfold has_amps. destruct offs; [|exact SA]. rewrite <- SA. apply map_ext. intros e. apply set_poly_spec.
      + destruct offs; [|exact SD]. rewrite <- SD. apply map_ext. intros e. apply set_poly_spec.
      + rewrite forallb_forall. split; intros H v V; specialize (H v V); [|destruct (Qltb_spec v 0) as [C|C]; [lra|reflexivity]]. destruct (Qltb_spec v 0) as [C|C]; [discriminate|lra].
      + intros e N. destruct (S1 e N) as (A1 & A2 & _). destruct (SO e N) as (B1 & B2 & _).
        destruct offs; [|split; congruence]. pose proof (set_poly_spec es (nth (length fit) c 0 / nf, nth (length fit + 1) c 0 / nf, nth (length fit + 2) c 0 / nf) (set_all s1 fit a sd)) as (P1 & P2 & _). fold a sd. rewrite P1, P2. split; congruence.
      + intros e I. unfold p. fold a sd. destruct offs; [apply set_poly_spec; exact I|]. rewrite SP. apply S1p.
      + intros e I. fold a sd. destruct offs; [|rewrite SP; apply S1p]. pose proof (set_poly_spec es (nth (length fit) c 0 / nf, nth (length fit + 1) c 0 / nf, nth (length fit + 2) c 0 / nf) (set_all s1 fit a sd)) as (_ & _ & _ & P & _). rewrite (P e I), SP. apply S1p.
      + fold a sd. destruct offs; [|congruence]. pose proof (set_poly_spec es (nth (length fit) c 0 / nf, nth (length fit + 1) c 0 / nf, nth (length fit + 2) c 0 / nf) (set_all s1 fit a sd)) as (_ & _ & _ & _ & P). congruence.
    - intros LT. destruct (Nat.ltb_spec (length xs) (nddl fit)) as [_|C]; [|lia]. eexists. split; [reflexivity|]. cbn [r_pos r_s]. split; [reflexivity|].
      set (s1 := fold_left (fun s e => SetElementAmplitude s e (Some 0) None) es s).
      assert (S1 : (forall e, In e es -> s_amp s1 e = Some 0 /\ s_std s1 e = None) /\ (forall e, s_poly s1 e = s_poly s e) /\ s_off s1 = s_off s /\ only es s s1).
      { split; [|split; [|split]].
        - unfold s1. clear. revert s. induction es as [|x t IH]; intros s e I; [destruct I|]. cbn [fold_left]. destruct (in_dec Nat.eq_dec e t) as [T|T]; [apply IH; exact T|]. destruct I as [->|I]; [|contradiction].
          assert (O : only t (SetElementAmplitude s e (Some 0) None) (fold_left (fun s e => SetElementAmplitude s e (Some 0) None) t (SetElementAmplitude s e (Some 0) None))) by (apply only_fold; intros; apply only_set; assumption).
          destruct (O e T) as (-> & -> & _). cbn. unfold upd. rewrite Nat.eqb_refl. auto.
        - unfold s1. clear. revert s. induction es as [|x t IH]; intros s e; cbn [fold_left]; [reflexivity|]. rewrite IH. reflexivity.
        - unfold s1. clear. revert s. induction es as [|x t IH]; intros s; cbn [fold_left]; [reflexivity|]. rewrite IH. reflexivity.
        - apply only_fold. intros; apply only_set; assumption. }
      destruct S1 as (A & B & C & D). destruct offs.
      + destruct (set_poly_spec es (0, 0, 0) s1) as (P1 & P2 & P3 & P4 & P5). split; [intros e I; rewrite P1, P2; apply A; exact I|]. split; [intros e N; rewrite P1, P2, (P4 e N); apply D; exact N|]. split; [exact P3|congruence].
      + split; [exact A|]. split; [exact D|]. split; [intros e _; apply B|exact C].
  Qed.
  Lemma Linear_throws o idx s : fitAmplitudesLinSolve axis flux err col supp solve sqrtf dblmin offs o [] idx s = Throw INTERNAL_ERROR /\
    forall es, supp es = [] -> fitAmplitudesLinSolve axis flux err col supp solve sqrtf dblmin offs o es idx s = Throw INTERNAL_ERROR.
  Proof. split; [reflexivity|]. intros [|e es] E; [reflexivity|]. unfold fitAmplitudesLinSolve. rewrite E. reflexivity. Qed.
End Lin.
