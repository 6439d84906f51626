From Verif Require Import Base RangeModel AxisModel ElemModel ElemSpec ElemProofs ElemProofs2.
Open Scope Z_scope.

Section Pass.
Variables (n : nat) (out : nat -> bool) (theo : nat -> Z * Z).
Notation inr := (inr n out).
Notation alive := (alive n out).
Notation Inv := (Inv n out theo).
Notation merged := (merged n out).

Definition isolated (st : supst) (h : nat) : Prop := forall h', alive st h' -> h' <> h -> ~ overlap (X st h) (X st h').
Definition big (m : Z) (G : nat -> list nat) (h : nat) : Prop := m <= Z.of_nat (length (G h)).
Definition weighted (m : Z) (st : supst) (G : nat -> list nat) : Prop := forall h, alive st h -> isolated st h \/ big m G h.

Section OnePass.
Variables (m : Z) (st0 : supst) (G0 : nat -> list nat).
Hypothesis W0 : weighted m st0 G0.

Definition unm (st : supst) (G : nat -> list nat) (h : nat) : Prop := alive st0 h /\ X st h = X st0 h /\ G h = G0 h.
Definition P (st : supst) (G : nat -> list nat) : Prop := Inv st G /\ forall h, alive st h -> unm st G h \/ big (2 * m) G h.
Definition fin (st : supst) (G : nat -> list nat) (h : nat) : Prop := isolated st h \/ big (2 * m) G h.

Lemma merged_P i j st G : i <> j -> alive st i -> alive st j -> overlap (X st i) (X st j) -> P st G ->
  P (merged i j st) (Gm i j G) /\ big (2 * m) (Gm i j G) i.
Proof.
  intros N Ai Aj O [I Q]. assert (B : big (2 * m) (Gm i j G) i).
  { unfold big. rewrite Gm_i by auto. rewrite app_length, Nat2Z.inj_add.
    destruct (Q i Ai) as [(A1 & E1 & F1)|H]; [|unfold big in H; lia]. destruct (Q j Aj) as [(A2 & E2 & F2)|H]; [|unfold big in H; lia].
    rewrite F1, F2. rewrite E1, E2 in O.
    destruct (W0 i A1) as [H|H]; [exfalso; apply (H j A2); auto|]. destruct (W0 j A2) as [H'|H']; [exfalso; apply (H' i A1); auto; now apply overlap_sym|].
    unfold big in *. lia. }
  split; [|exact B]. split; [apply merged_inv; auto|].
  intros h Ah. apply alive_merged in Ah; auto. destruct Ah as [Nh Ah]. destruct (Nat.eq_dec h i) as [-> |Hi]; [auto|].
  unfold unm, big. rewrite merged_o, Gm_o by auto. apply Q. auto.
Qed.
Lemma merged_fin i j st G h : i <> j -> alive st i -> alive st j -> overlap (X st i) (X st j) ->
  alive (merged i j st) h -> h <> i -> fin st G h -> fin (merged i j st) (Gm i j G) h.
Proof.
  intros N Ai Aj O Ah Hi F. apply alive_merged in Ah; auto. destruct Ah as [Nh Ah]. destruct F as [F|F].
  - left. intros h' Ah' Nn. apply alive_merged in Ah'; auto. destruct Ah' as [Nh' Ah']. rewrite merged_o by auto.
    destruct (Nat.eq_dec h' i) as [-> |Hi'].
    + rewrite merged_i by auto. intro O'. pose proof (F i Ai Nn) as F1. pose proof (F j Aj ltac:(auto)) as F2.
      unfold overlap, in_support, X in *. cbn [fst snd] in *. destruct O as [u U]. destruct O' as [t T].
      destruct (Z_le_gt_dec (sn st i) t) as [L|L]; destruct (Z_le_gt_dec (t + 1) (en st i)) as [L'|L'].
      * apply F1. exists t. lia.
      * apply F2. exists t. lia.
      * apply F2. exists t. lia.
      * apply F2. exists t. lia.
    + rewrite merged_o by auto. apply F; auto.
  - right. unfold big. rewrite Gm_o by auto. exact F.
Qed.

Lemma row_fold i L : forall st G Pre Pre2, Forall (fun j => (j < n)%nat) L -> P st G -> alive st i -> ~ In i Pre ->
  (forall h, In h Pre -> alive st h -> fin st G h) ->
  (big (2 * m) G i \/ forall j, In j Pre2 -> j <> i -> alive st j -> ~ overlap (X st i) (X st j)) ->
  exists G', let st' := fold_left (merge_step n out i) L st in
    P st' G' /\ alive st' i /\ (forall h, In h Pre -> alive st' h -> fin st' G' h) /\
    (big (2 * m) G' i \/ forall j, In j Pre2 \/ In j L -> j <> i -> alive st' j -> ~ overlap (X st' i) (X st' j)).
Proof.
  induction L as [|j L IH]; intros st G Pre Pre2 FL HP Ai NI HF HB; cbn [fold_left].
  - exists G. cbn zeta. split; [auto|split; [auto|split; [auto|]]]. destruct HB as [HB|HB]; [auto|]. right. intros j [H|[]]. auto.
  - inversion FL as [|? ? Lj FL']; subst. destruct (step_cases n out i j st Ai Lj) as [(-> & N & Aj & O)|(-> & NO)].
    + destruct (merged_P i j st G N Ai Aj O HP) as [HP' B'].
      assert (Ai' : alive (merged i j st) i) by (apply alive_merged; auto).
      destruct (IH (merged i j st) (Gm i j G) Pre Pre2 FL' HP' Ai' NI) as (G' & A & B & C & D).
      * intros h Hh Ah. apply merged_fin; auto. { intros ->; auto. } apply HF; auto. apply alive_merged in Ah; tauto.
      * auto.
      * exists G'. cbn zeta. split; [auto|split; [auto|split; [auto|]]]. destruct D as [D|D]; [auto|].
        right. intros j' Hj' Nj' Aj'. destruct Hj' as [H|[H|H]]; [apply D; auto| |apply D; auto].
        subst j'. exfalso.
        assert (Dead : forall L' s, i <> j -> ~ nonempty (X s j) -> ~ nonempty (X (fold_left (merge_step n out i) L' s) j) \/ ~ nonempty (X s j)) by auto.
        clear Dead.
        assert (K : forall L' s, ~ nonempty (X s j) -> ~ nonempty (X (fold_left (merge_step n out i) L' s) j)).
        { induction L' as [|x L' IHL]; intros s Hs; cbn [fold_left]; auto. apply IHL.
          unfold merge_step. destruct (out x); auto. destruct (en s x <? sn s x) eqn:E; auto. destruct (Nat.eqb_spec i x) as [Ex|Nx]; auto. cbn zeta.
          destruct (overlapping (sn s i) (en s i) (sn s x) (en s x)); auto. apply Z.ltb_ge in E.
          destruct (Nat.eq_dec x j) as [Exj|Nxj]; [subst x; exfalso; apply Hs; unfold nonempty, X; cbn [fst snd]; auto|].
          unfold nonempty, X in *. cbn [sn en fst snd] in *. rewrite !(upd_neq _ x) by auto. rewrite !(upd_neq _ i) by auto. auto. }
        apply (K L (merged i j st) (merged_j _ _ i j st N)). apply Aj'.
    + destruct (IH st G Pre (j :: Pre2) FL' HP Ai NI HF) as (G' & A & B & C & D).
      * destruct HB as [HB|HB]; [auto|]. right. intros j' [H|H]; [subst; auto|auto].
      * exists G'. cbn zeta. split; [auto|split; [auto|split; [auto|]]]. destruct D as [D|D]; [auto|]. right. intros j' Hj'. apply D. cbn [In] in *. tauto.
Qed.

Lemma pass_fold L : forall st G Pre, NoDup L -> (forall x, In x Pre -> ~ In x L) -> Forall (fun j => (j < n)%nat) L -> P st G ->
  (forall h, In h Pre -> alive st h -> fin st G h) ->
  exists G', let st' := fold_left (merge_row n out) L st in P st' G' /\ forall h, In h Pre \/ In h L -> alive st' h -> fin st' G' h.
Proof.
  induction L as [|i L IH]; intros st G Pre ND DJ FL HP HF; cbn [fold_left].
  - exists G. cbn zeta. split; auto. intros h [H|[]]; auto.
  - apply NoDup_cons_iff in ND. destruct ND as [Ni ND]. inversion FL as [|? ? Li FL']; subst.
    assert (ST : exists G1, P (merge_row n out st i) G1 /\ (forall h, In h Pre -> alive (merge_row n out st i) h -> fin (merge_row n out st i) G1 h) /\
                  (alive (merge_row n out st i) i -> fin (merge_row n out st i) G1 i)).
    { unfold merge_row. destruct (out i) eqn:Oi. { exists G. split; [auto|split; [auto|]]. intros [[_ H] _]. congruence. }
      destruct (Z.ltb_spec (en st i) (sn st i)) as [H|H].
      { exists G. split; [auto|split; [auto|]]. intros [_ H']. unfold nonempty, X in H'. cbn [fst snd] in H'. lia. }
      assert (Ai : alive st i) by (split; [split; auto|exact H]).
      destruct (row_fold i (seq 0 n) st G Pre []) as (G1 & A & B & C & D); auto.
      - apply Forall_forall. intros x Hx. apply in_seq in Hx. lia.
      - intro K. apply (DJ i K). left; auto.
      - exists G1. cbn zeta in *. split; [auto|split; [auto|]]. intros _. destruct D as [D|D]; [right; auto|left].
        intros h' Ah' Nh'. apply D; auto. right. apply in_seq. destruct Ah' as [[K _] _]. lia. }
    destruct ST as (G1 & A & B & C).
    destruct (IH (merge_row n out st i) G1 (i :: Pre) ND) as (G' & A' & B'); auto.
    + intros x [<- |Hx]; [auto|]. intro K. apply (DJ x Hx). right; auto.
    + intros h [<- |Hh] Ah; auto.
    + exists G'. cbn zeta in *. split; auto. intros h [Hh|[<- |Hh]] Ah; apply B'; auto; [left; right; auto|left; left; auto].
Qed.
End OnePass.

Lemma pass_spec m st G : 0 <= m -> Inv st G -> weighted m st G -> exists G', Inv (merge_pass n out st) G' /\ weighted (2 * m) (merge_pass n out st) G'.
Proof.
  intros M I W. destruct (pass_fold m st G W (seq 0 n) st G []) as (G' & [A _] & B).
  - apply seq_NoDup.
  - intros x [].
  - apply Forall_forall. intros x Hx. apply in_seq in Hx. lia.
  - split; auto. intros h Ah. left. repeat split; auto; apply Ah.
  - intros h [].
  - exists G'. split; [exact A|]. intros h Ah. apply B; [|exact Ah]. right. apply in_seq. destruct Ah as [[K _] _]. lia.
Qed.

Lemma no_dup st : has_duplicates n out st = false -> forall h h', inr h -> inr h' -> h <> h' -> ~ overlap (X st h) (X st h').
Proof.
  unfold has_duplicates. intros H h h' [L O] [L' O'] N V.
  assert (T : existsb (fun i => negb (out i) && existsb (fun j => negb (out j) && negb (Nat.eqb i j) && overlapping (sn st i) (en st i) (sn st j) (en st j)) (seq 0 n)) (seq 0 n) = true); [|congruence].
  apply existsb_exists. exists h. split; [apply in_seq; lia|]. rewrite O. cbn [negb andb]. apply existsb_exists. exists h'. split; [apply in_seq; lia|].
  rewrite O'. cbn [negb andb]. apply Nat.eqb_neq in N. rewrite N. cbn [negb andb]. apply overlapping_spec. exact V.
Qed.
Lemma dup st : has_duplicates n out st = true -> exists h h', alive st h /\ alive st h' /\ h <> h' /\ overlap (X st h) (X st h').
Proof.
  unfold has_duplicates. intro H. apply existsb_exists in H. destruct H as (h & Hh & H). apply andb_prop in H. destruct H as [O H].
  apply existsb_exists in H. destruct H as (h' & Hh' & H). apply andb_prop in H. destruct H as [H V]. apply andb_prop in H. destruct H as [O' N].
  apply in_seq in Hh. apply in_seq in Hh'. apply negb_true_iff in O, O', N. apply Nat.eqb_neq in N. apply overlapping_spec in V.
  exists h, h'. assert (NE : nonempty (X st h) /\ nonempty (X st h')). { destruct V as [t V]. unfold nonempty, in_support, X in *. cbn [fst snd] in *. lia. }
  split; [split; [split; [lia|auto]|apply NE]|split; [split; [split; [lia|auto]|apply NE]|split; auto]].
Qed.

Lemma loop_spec fuel : forall m st G, 0 <= m -> Inv st G -> weighted m st G -> (0 < fuel)%nat ->
  exists G', Inv (merge_loop fuel n out st) G' /\
    ((forall h h', inr h -> inr h' -> h <> h' -> ~ overlap (X (merge_loop fuel n out st) h) (X (merge_loop fuel n out st) h')) \/
     2 ^ (Z.of_nat fuel + 1) * m <= Z.of_nat n).
Proof.
  induction fuel as [|k IH]; intros m st G M I W Hf; [lia|]. cbn [merge_loop]. cbn zeta.
  destruct (pass_spec m st G M I W) as (G1 & I1 & W1). destruct (has_duplicates n out (merge_pass n out st)) eqn:E.
  - destruct k as [|k].
    + cbn [merge_loop]. exists G1. split; auto. right. destruct (dup _ E) as (h & h' & Ah & Ah' & N & V).
      destruct (W1 h Ah) as [H|H]; [exfalso; apply (H h' Ah'); auto|]. destruct (W1 h' Ah') as [H'|H']; [exfalso; apply (H' h Ah); auto; now apply overlap_sym|].
      assert (L : (length (G1 h ++ G1 h') <= length (seq 0 n))%nat).
      { apply NoDup_incl_length.
        - assert (U : forall l l' : list nat, NoDup l -> NoDup l' -> (forall x, In x l -> In x l' -> False) -> NoDup (l ++ l')%list).
          { induction l as [|a l IHl]; intros l' P1 Q1 D; cbn [app]; auto. apply NoDup_cons_iff in P1. destruct P1 as [P1 P2]. constructor.
            - rewrite in_app_iff. intros [K|K]; [auto|]. apply (D a); [left; auto|auto].
            - apply IHl; auto. intros x Hx. apply D. right; auto. }
          apply U; [apply (i_nd _ _ _ _ _ I1); auto|apply (i_nd _ _ _ _ _ I1); auto|]. intros x Hx Hx'. apply N. apply (i_dis _ _ _ _ _ I1 h h' x); auto.
        - intros x Hx. apply in_seq. apply in_app_iff in Hx. destruct Hx as [Hx|Hx]; [destruct (i_mem _ _ _ _ _ I1 h x Ah Hx) as [K _]|destruct (i_mem _ _ _ _ _ I1 h' x Ah' Hx) as [K _]];
          apply linked_in in K; destruct K as [_ [K _]]; lia. }
      rewrite app_length, seq_length in L. unfold big in *. change (2 ^ (Z.of_nat 1 + 1)) with 4. lia.
    + destruct (IH (2 * m) (merge_pass n out st) G1) as (G' & A & B); [lia|auto|auto|lia|]. exists G'. split; auto. destruct B as [B|B]; [auto|]. right.
      replace (Z.of_nat (S (S k)) + 1) with (Z.succ (Z.of_nat (S k) + 1)) by lia. rewrite Z.pow_succ_r by lia. lia.
  - exists G1. split; auto. left. apply no_dup. exact E.
Qed.
End Pass.
