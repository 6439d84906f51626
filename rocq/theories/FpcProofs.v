From Coq Require Import String.
From Verif Require Import Base RangeModel RangeProofs MeikModel MeikProofs FpcModel FpcSpec.
Open Scope Q_scope.

(** ** lists *)
Lemma vset_mid {A} (l1 l2 : list A) x y i : i = List.length l1 -> vset (l1 ++ x :: l2)%list i y = Ok (l1 ++ y :: l2)%list.
Proof.
  intros ->. induction l1 as [|h t IH]; [reflexivity|]. cbn [List.length app vset]. rewrite IH. reflexivity.
Qed.
Lemma vset_next {A} (l1 l2 : list A) x y i : i = List.length l1 -> vset (l1 ++ x :: l2)%list i y = Ok ((l1 ++ [y]) ++ l2)%list.
Proof. intro H. rewrite (vset_mid l1 l2 x y i H). rewrite <- app_assoc. reflexivity. Qed.
Lemma resize_length {A} (l : list A) n d : List.length (resize l n d) = n.
Proof. unfold resize. rewrite app_length, firstn_length, repeat_length. lia. Qed.
Lemma resize_grow {A} (l : list A) m d n : n = List.length l -> resize l (n + m) d = (l ++ repeat d m)%list.
Proof. intros ->. unfold resize. rewrite firstn_all2 by lia. f_equal. f_equal. lia. Qed.
Lemma rbind_assoc {A B C} (x : res A) (f : A -> res B) (g : B -> res C) : rbind (rbind x f) g = rbind x (fun a => rbind (f a) g).
Proof. destruct x; reflexivity. Qed.

(** ** the rows written by the loops *)
Definition srow (r : result) (c : ranked) : res (option Q * option Q * tplsol) :=
  do z <- redshift c; do idx <- getIndex (r_z r) z; do l <- vget (r_lines r) idx; do k <- vget (r_cont r) idx; Ok (l_elv l, l_alv l, k).
Lemma set_loop_eq r cs ext ge ga : forall zs i E A T e a t, List.length E = i -> List.length A = i -> List.length T = i ->
  List.length e = List.length zs -> List.length a = List.length zs -> List.length t = List.length zs ->
  set_loop r zs i (mkPass cs (T ++ t) ext (E ++ e) (A ++ a) ge ga)%list =
  (do rows <- mapr (srow r) zs; Ok (mkPass cs (T ++ map snd rows) ext (E ++ map (fun x => fst (fst x)) rows) (A ++ map (fun x => snd (fst x)) rows) ge ga)%list).
Proof.
  induction zs as [|c zs IH]; intros i E A T e a t HE HA HT He Ha Ht.
  - destruct e; [|discriminate]. destruct a; [|discriminate]. destruct t; [|discriminate]. reflexivity.
  - destruct e as [|e0 e]; [discriminate|]. destruct a as [|a0 a]; [discriminate|]. destruct t as [|t0 t]; [discriminate|].
    cbn [set_loop mapr]. unfold srow at 1. destruct (redshift c) as [z| |]; cbn [rbind]; [|reflexivity|reflexivity].
    destruct (getIndex (r_z r) z) as [idx| |]; cbn [rbind]; [|reflexivity|reflexivity].
    destruct (vget (r_lines r) idx) as [l| |]; cbn [rbind]; [|reflexivity|reflexivity].
    unfold set_elv. cbn [p_elv p_cands p_tpl p_ext p_alv p_gelv p_galv]. rewrite (vset_next E e e0 _ i) by auto. cbn [rbind].
    unfold set_alv. cbn [p_elv p_cands p_tpl p_ext p_alv p_gelv p_galv]. rewrite (vset_next A a a0 _ i) by auto. cbn [rbind].
    destruct (vget (r_cont r) idx) as [k| |]; cbn [rbind]; [|reflexivity|reflexivity].
    unfold fillWithContinuumModelSolutionAtIndex. cbn [p_elv p_cands p_tpl p_ext p_alv p_gelv p_galv]. rewrite (vset_next T t t0 _ i) by auto. cbn [rbind].
    rewrite IH by (rewrite ?app_length; cbn [List.length] in *; lia).
    destruct (mapr (srow r) zs) as [rows| |]; cbn [rbind]; [|reflexivity|reflexivity].
    cbn [map fst snd]. rewrite <- !app_assoc. reflexivity.
Qed.

Definition crow (r : result) (b : pass) (i : nat) : res (ranked * option Q * option Q * tplsol) :=
  do c <- vget (p_cands b) i; do e <- vget (p_elv b) i; do a <- vget (p_alv b) i;
  do z <- redshift c; do idx <- getIndex (r_z r) z; do k <- vget (r_cont r) idx;
  if String.eqb (t_name k) "" then Throw TPL_NAME_EMPTY else Ok (c, e, a, k).
Lemma combine_loop_eq r b ext ge ga start : forall us keb C E A T c e a t,
  List.length C = (start + keb)%nat -> List.length E = (start + keb)%nat -> List.length A = (start + keb)%nat -> List.length T = (start + keb)%nat ->
  List.length c = List.length us -> List.length e = List.length us -> List.length a = List.length us -> List.length t = List.length us ->
  combine_loop r b start us keb (mkPass (C ++ c) (T ++ t) ext (E ++ e) (A ++ a) ge ga)%list =
  (do rows <- mapr (crow r b) us;
   Ok (mkPass (C ++ map (fun x => fst (fst (fst x))) rows) (T ++ map snd rows) ext (E ++ map (fun x => snd (fst (fst x))) rows) (A ++ map (fun x => snd (fst x)) rows) ge ga)%list).
Proof.
  induction us as [|u us IH]; intros keb C E A T c e a t HC HE HA HT Hc He Ha Ht.
  - destruct c; [|discriminate]. destruct e; [|discriminate]. destruct a; [|discriminate]. destruct t; [|discriminate]. reflexivity.
  - destruct c as [|c0 c]; [discriminate|]. destruct e as [|e0 e]; [discriminate|]. destruct a as [|a0 a]; [discriminate|]. destruct t as [|t0 t]; [discriminate|].
    cbn [combine_loop mapr]. unfold crow at 1. destruct (vget (p_cands b) u) as [x| |]; cbn [rbind]; [|reflexivity|reflexivity].
    unfold set_cand. cbn [p_elv p_cands p_tpl p_ext p_alv p_gelv p_galv]. rewrite (vset_next C c c0 _ (start + keb)) by auto. cbn [rbind].
    destruct (vget (p_elv b) u) as [y| |]; cbn [rbind]; [|reflexivity|reflexivity].
    unfold set_elv. cbn [p_elv p_cands p_tpl p_ext p_alv p_gelv p_galv]. rewrite (vset_next E e e0 _ (start + keb)) by auto. cbn [rbind].
    destruct (vget (p_alv b) u) as [w| |]; cbn [rbind]; [|reflexivity|reflexivity].
    unfold set_alv. cbn [p_elv p_cands p_tpl p_ext p_alv p_gelv p_galv]. rewrite (vset_next A a a0 _ (start + keb)) by auto. cbn [rbind].
    destruct (redshift x) as [z| |]; cbn [rbind]; [|reflexivity|reflexivity].
    destruct (getIndex (r_z r) z) as [idx| |]; cbn [rbind]; [|reflexivity|reflexivity].
    destruct (vget (r_cont r) idx) as [k| |]; cbn [rbind]; [|reflexivity|reflexivity].
    unfold fillWithContinuumModelSolutionAtIndex. cbn [p_elv p_cands p_tpl p_ext p_alv p_gelv p_galv]. rewrite (vset_next T t t0 _ (start + keb)) by auto. cbn [rbind].
    destruct (String.eqb (t_name k) ""); cbn [rbind]; [reflexivity|].
    rewrite IH by (rewrite ?app_length; cbn [List.length] in *; lia).
    destruct (mapr (crow r b) us) as [rows| |]; cbn [rbind]; [|reflexivity|reflexivity].
    cbn [map fst snd]. rewrite <- !app_assoc. reflexivity.
Qed.

(** ** solutions *)
Lemma redshift_at c z : at_z c z -> redshift c = Ok z.
Proof. intros (k & H & Hz). unfold redshift. rewrite H, Hz. reflexivity. Qed.
Lemma redshift_inv c z : redshift c = Ok z -> at_z c z.
Proof. unfold redshift. destruct (snd c) as [k|] eqn:E; [|discriminate]. intro H. inversion H. exists k. auto. Qed.
Lemma at_z_fun c z z' : at_z c z -> at_z c z' -> z = z'.
Proof. intros H H'. apply redshift_at in H, H'. congruence. Qed.
Lemma index_solution r z i l t : getIndex (r_z r) z = Ok i -> vget (r_lines r) i = Ok l -> vget (r_cont r) i = Ok t -> solution r z l t.
Proof.
  intros Hi Hl Ht. pose proof (getIndex_spec (r_z r) z) as S. rewrite Hi in S. destruct S as ((x & Hx & Hz) & Hf).
  apply vget_Ok in Hl, Ht. exists i, x. auto.
Qed.
Lemma solution_index r z l t : solution r z l t -> exists i, getIndex (r_z r) z = Ok i /\ vget (r_lines r) i = Ok l /\ vget (r_cont r) i = Ok t.
Proof.
  intros (i & x & Hx & Hz & Hf & Hl & Ht). exists i. pose proof (getIndex_spec (r_z r) z) as S.
  destruct (getIndex (r_z r) z) as [j|[]|]; try contradiction.
  - destruct S as ((y & Hy & Hyz) & Hg). assert (i = j) as <-.
    { destruct (Nat.lt_trichotomy i j) as [L|[L|L]]; [|exact L|].
      - exfalso. exact (Hg i x L Hx Hz).
      - exfalso. exact (Hf j y L Hy Hyz). }
    split; [reflexivity|]. split; apply vget_Ok; assumption.
  - exfalso. apply (S x); [apply nth_error_In in Hx; exact Hx|exact Hz].
Qed.
Lemma solution_fun r z l t l' t' : solution r z l t -> solution r z l' t' -> l = l' /\ t = t'.
Proof.
  intros H H'. apply solution_index in H, H'. destruct H as (i & A & B & C). destruct H' as (j & A' & B' & C').
  assert (i = j) by congruence. subst j. split; congruence.
Qed.
Lemma solution_exists r z : complete r -> on_grid r z -> exists l t, solution r z l t.
Proof.
  intros (Ll & Lc) (x & Hx & Hz). pose proof (getIndex_spec (r_z r) z) as S.
  destruct (getIndex (r_z r) z) as [j|[]|] eqn:Ej; try contradiction.
  - destruct S as ((y & Hy & Hyz) & _). assert (j < List.length (r_z r))%nat as Lj by (apply nth_error_Some; congruence).
    destruct (vget_in (r_lines r) j) as (l & Hl); [lia|]. destruct (vget_in (r_cont r) j) as (t & Ht); [lia|].
    exists l, t. apply (index_solution r z j); assumption.
  - exfalso. exact (S x Hx Hz).
Qed.
Lemma off_grid r z : ~ on_grid r z -> getIndex (r_z r) z = Throw INTERNAL_ERROR.
Proof.
  intro N. pose proof (getIndex_spec (r_z r) z) as S. destruct (getIndex (r_z r) z) as [j|[]|]; try contradiction; [|reflexivity].
  exfalso. destruct S as ((y & Hy & Hyz) & _). apply N. exists y. split; [apply nth_error_In in Hy; exact Hy|exact Hyz].
Qed.
Lemma on_grid_dec r z : on_grid r z \/ ~ on_grid r z.
Proof.
  pose proof (getIndex_spec (r_z r) z) as S. destruct (getIndex (r_z r) z) as [j|[]|]; try contradiction.
  - left. destruct S as ((y & Hy & Hyz) & _). exists y. split; [apply nth_error_In in Hy; exact Hy|exact Hyz].
  - right. intros (x & Hx & Hz). exact (S x Hx Hz).
Qed.

(** ** SetFirstPassCandidates *)
Lemma srow_ok r c z l t : at_z c z -> solution r z l t -> srow r c = Ok (l_elv l, l_alv l, t).
Proof.
  intros Hc Hs. unfold srow. rewrite (redshift_at c z Hc). cbn [rbind]. apply solution_index in Hs. destruct Hs as (i & A & B & C).
  rewrite A. cbn [rbind]. rewrite B. cbn [rbind]. rewrite C. reflexivity.
Qed.
Lemma set_eq r p zs : SetFirstPassCandidates r p zs =
  (do rows <- mapr (srow r) zs; Ok (mkPass zs (map snd rows) (p_ext p) (map (fun x => fst (fst x)) rows) (map (fun x => snd (fst x)) rows)
     (resize (p_gelv p) (List.length zs) (repeat None 250)) (resize (p_galv p) (List.length zs) (repeat None 250)))).
Proof.
  unfold SetFirstPassCandidates, Resize. cbv zeta. cbn [p_elv p_cands p_tpl p_ext p_alv p_gelv p_galv].
  generalize (set_loop_eq r zs (p_ext p) (resize (p_gelv p) (List.length zs) (repeat None 250)) (resize (p_galv p) (List.length zs) (repeat None 250)) zs 0 [] [] []
    (resize (p_elv p) (List.length zs) None) (resize (p_alv p) (List.length zs) None) (resize (p_tpl p) (List.length zs) no_tpl)).
  cbn [app]. intro H. apply H; try reflexivity; apply resize_length.
Qed.
Lemma set_ok r p zs : complete r -> real zs -> (forall c z, In c zs -> at_z c z -> on_grid r z) ->
  exists p', SetFirstPassCandidates r p zs = Ok p' /\ p_cands p' = zs /\ whole p' /\ p_ext p' = p_ext p /\
    (forall i c z l t, nth_error zs i = Some c -> at_z c z -> solution r z l t ->
      nth_error (p_elv p') i = Some (l_elv l) /\ nth_error (p_alv p') i = Some (l_alv l) /\ nth_error (p_tpl p') i = Some t).
Proof.
  intros Hr Hz Hg. rewrite set_eq. destruct (mapr_total (srow r) zs) as (rows & Er).
  { intros c Hc. destruct (Hz c Hc) as (z & Hcz). destruct (solution_exists r z Hr (Hg c z Hc Hcz)) as (l & t & Hs).
    eexists. exact (srow_ok r c z l t Hcz Hs). }
  rewrite Er. cbn [rbind]. eexists. split; [reflexivity|]. apply mapr_ok in Er. destruct Er as (Lr & Gr).
  cbn [p_elv p_cands p_tpl p_ext p_alv p_gelv p_galv]. split; [reflexivity|]. split.
  - unfold whole. cbn [p_elv p_cands p_tpl p_ext p_alv p_gelv p_galv]. rewrite !map_length, !resize_length, Lr. auto 10.
  - split; [reflexivity|]. intros i c z l t Hi Hc Hs. destruct (Gr i c Hi) as (y & Ey & Hy). rewrite (srow_ok r c z l t Hc Hs) in Hy. inversion Hy; subst y.
    rewrite !(map_nth_error _ _ _ Ey). auto.
Qed.
Lemma mapr_err {A B} (f : A -> res B) e : forall l, (forall x, In x l -> (exists y, f x = Ok y) \/ f x = Throw e) -> (exists x, In x l /\ f x = Throw e) -> mapr f l = Throw e.
Proof.
  induction l as [|a t IH]; intros H (x & Hx & Ex); [contradiction|]. cbn [mapr].
  destruct (H a (or_introl eq_refl)) as [(y & Ey)|Ey]; rewrite Ey; cbn [rbind]; [|reflexivity].
  rewrite IH; [reflexivity| |].
  - intros x' Hx'. apply H. right. exact Hx'.
  - exists x. destruct Hx as [->|Hx]; [congruence|]. auto.
Qed.
Lemma set_off_grid r p zs c z : complete r -> real zs -> In c zs -> at_z c z -> ~ on_grid r z -> SetFirstPassCandidates r p zs = Throw INTERNAL_ERROR.
Proof.
  intros Hr Hz Hc Hcz Hn. rewrite set_eq. rewrite (mapr_err (srow r) INTERNAL_ERROR); [reflexivity| |].
  - intros x Hx. destruct (Hz x Hx) as (zx & Hxz). destruct (on_grid_dec r zx) as [G|G].
    + left. destruct (solution_exists r zx Hr G) as (l & t & Hs). eexists. exact (srow_ok r x zx l t Hxz Hs).
    + right. unfold srow. rewrite (redshift_at x zx Hxz). cbn [rbind]. rewrite (off_grid r zx G). reflexivity.
  - exists c. split; [exact Hc|]. unfold srow. rewrite (redshift_at c z Hcz). cbn [rbind]. rewrite (off_grid r z Hn). reflexivity.
Qed.
Lemma set_forgets r p q zs p' q' : SetFirstPassCandidates r p zs = Ok p' -> SetFirstPassCandidates r q zs = Ok q' ->
  p_cands p' = p_cands q' /\ p_tpl p' = p_tpl q' /\ p_elv p' = p_elv q' /\ p_alv p' = p_alv q'.
Proof.
  rewrite !set_eq. destruct (mapr (srow r) zs) as [rows| |]; cbn [rbind]; [|discriminate|discriminate].
  intros H H'. inversion H. inversion H'. subst. cbn. auto.
Qed.

(** ** getUniqueCandidates *)
Lemma duplicate_spec zb : forall cs, real cs -> exists d, duplicate zb cs = Ok d /\ (d = true <-> exists c z, In c cs /\ at_z c z /\ near zb z).
Proof.
  induction cs as [|c t IH]; intro R.
  - exists false. split; [reflexivity|]. split; [discriminate|]. intros (c & _ & [] & _).
  - destruct (R c (or_introl eq_refl)) as (z & Hz). destruct IH as (d & Ed & Hd); [intros x Hx; apply R; right; exact Hx|].
    cbn [duplicate]. rewrite (redshift_at c z Hz). cbn [rbind]. unfold skip_thres_absdiffz.
    destruct (Qltb_spec (Qabs (zb - z)) (5 # 10000)) as [L|L].
    + exists true. split; [reflexivity|]. split; [intros _|auto]. exists c, z. split; [left; reflexivity|]. auto.
    + exists d. split; [exact Ed|]. rewrite Hd. split; intros (c' & z' & Hc & Hz' & Hn).
      * exists c', z'. split; [right; exact Hc|]. auto.
      * destruct Hc as [Ec|Hc]; [|exists c', z'; auto]. subst c'. exfalso. rewrite (at_z_fun c z' z Hz' Hz) in Hn. exact (L Hn).
Qed.
Lemma duplicate_new zb b cs d : real cs -> at_z b zb -> duplicate zb cs = Ok d -> (d = false <-> new_in cs b).
Proof.
  intros R Hb E. destruct (duplicate_spec zb cs R) as (d' & E' & H). assert (d' = d) by congruence. subst d'. split.
  - intros -> c z zb' Hc Hz Hb' N. rewrite <- (at_z_fun b zb zb' Hb Hb') in N. assert (false = true) by (apply H; exists c, z; auto). discriminate.
  - intro N. destruct d; [|reflexivity]. exfalso. destruct (proj1 H eq_refl) as (c & z & Hc & Hz & Hn). exact (N c z zb Hc Hz Hb Hn).
Qed.
Lemma unique_spec cs : real cs -> forall bs k, real bs -> exists us, unique_loop cs bs k = Ok us /\
  (forall j, In j us <-> exists i b, j = (k + i)%nat /\ nth_error bs i = Some b /\ new_in cs b) /\
  (forall i j a b, (i < j)%nat -> nth_error us i = Some a -> nth_error us j = Some b -> (a < b)%nat).
Proof.
  intro R. induction bs as [|b t IH]; intros k Rb.
  - exists []. split; [reflexivity|]. split.
    + intro j. split; [intros []|]. intros (i & b & _ & H & _). destruct i; discriminate.
    + intros i j a b _ H. destruct i; discriminate.
  - destruct (Rb b (or_introl eq_refl)) as (zb & Hb). destruct (IH (S k)) as (us & Eu & Hu & Su); [intros x Hx; apply Rb; right; exact Hx|].
    cbn [unique_loop]. rewrite (redshift_at b zb Hb). cbn [rbind]. destruct (duplicate_spec zb cs R) as (d & Ed & _). rewrite Ed. cbn [rbind].
    rewrite Eu. cbn [rbind]. eexists. split; [reflexivity|]. pose proof (duplicate_new zb b cs d R Hb Ed) as Hd.
    assert (Hu' : forall j, In j us -> (k < j)%nat). { intros j Hj. apply Hu in Hj. destruct Hj as (i & _ & -> & _). lia. }
    split.
    + intro j. split.
      * intro Hj. assert (Hj' : (d = false /\ j = k) \/ In j us). { destruct d; [right; exact Hj|]. destruct Hj as [E|Hj]; [left; auto|right; exact Hj]. }
        destruct Hj' as [(Df & ->)|Hj']; [exists O, b|]. { split; [lia|]. split; [reflexivity|]. apply Hd. exact Df. }
        apply Hu in Hj'. destruct Hj' as (i & b' & -> & Hi & Hn). exists (S i), b'. split; [lia|]. auto.
      * intros (i & b' & -> & Hi & Hn). destruct i as [|i].
        { cbn [nth_error] in Hi. inversion Hi; subst b'. apply Hd in Hn. rewrite Hn. left. lia. }
        assert (In (k + S i)%nat us) as G. { apply Hu. exists i, b'. split; [lia|]. auto. }
        destruct d; [exact G|right; exact G].
    + destruct d; [exact Su|]. intros i j a c L Hi Hj. destruct j as [|j]; [lia|]. cbn [nth_error] in Hj. destruct i as [|i].
      * cbn [nth_error] in Hi. inversion Hi; subst a. apply Hu'. apply nth_error_In in Hj. exact Hj.
      * cbn [nth_error] in Hi. apply (Su i j); [lia|assumption|assumption].
Qed.
