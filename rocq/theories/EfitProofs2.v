From Verif Require Import Base RangeModel AxisModel AxisProofs ElemModel ElemSpec ElemProofs ElemProofs2 ElemProofs3 ElemProofs4 ElemProofs5 EfitModel EfitSpec EfitProofs.
Open Scope Q_scope.

Lemma overlap_sym p q : overlap p q -> overlap q p.
Proof. intros (t & A & B & C & D). exists t. auto. Qed.
Lemma linked_trans inr theo a b c : linked inr theo a b -> linked inr theo b c -> linked inr theo a c.
Proof. intros A B. revert A. induction B as [|l m B IH I O]; intros A; [exact A|]. eapply linked_step; [apply IH; exact A|exact I|exact O]. Qed.
Lemma linked_inr1 inr theo a b : linked inr theo a b -> inr a.
Proof. induction 1; auto. Qed.
Lemma linked_inr2 inr theo a b : linked inr theo a b -> inr b.
Proof. intros H. destruct H; auto. Qed.
Lemma linked_sym inr theo a b : linked inr theo a b -> linked inr theo b a.
Proof.
  induction 1 as [I|l m A IH I O]; [constructor; exact I|].
  apply linked_trans with l; [|exact IH]. apply linked_step with m; [constructor; exact I|exact (linked_inr2 _ _ _ _ A)|apply overlap_sym; exact O].
Qed.

Section Prep.
Variables (avail : Q -> bool) (width : Q -> Q) (prof : nat -> Q -> Q -> Q -> Q) (axis : list Q) (z : Q) (r : range) (mo : Q) (ls : list eline) (s : support).
Hypothesis Inc : strictly_increasing axis.
Hypothesis Len : (0 < length axis)%nat.
Hypothesis Prep : prepared_for avail width axis z r mo ls s.

Let PS : prepareSupport avail width (map el_s ls) axis z r mo = Ok s := proj1 Prep.
Lemma Small : (Z.of_nat (length (map el_s ls)) < 2 ^ 21)%Z.
Proof. rewrite map_length. exact (proj2 Prep). Qed.
Lemma Size : s_size s = length ls.
Proof.
  pose proof PS as P. unfold prepareSupport in P. destruct (estimate_all avail width (map el_s ls) axis z r mo) as [rs| |]; try discriminate. cbn [rbind] in P. inversion P. cbn. apply map_length.
Qed.
Lemma used_iff k : used s k <-> (k < length ls)%nat /\ s_out s k = false.
Proof. unfold used. rewrite Size. reflexivity. Qed.

Definition head (h k : nat) : Prop := used s h /\ nonempty (getSupportSubElt s h) /\ linked (used s) (s_theo s) h k.
Lemma head_active h k : used s h -> nonempty (getSupportSubElt s h) -> (ac (s_state s) h k = true <-> linked (used s) (s_theo s) h k).
Proof. intros U N. apply (proj1 (Groups avail width (map el_s ls) axis z r mo s Inc Len PS)); auto. apply Small. Qed.
Lemma head_support h t : used s h -> nonempty (getSupportSubElt s h) ->
  (in_support (Z.of_nat t) (getSupportSubElt s h) <-> exists k, linked (used s) (s_theo s) h k /\ in_support (Z.of_nat t) (s_theo s k)).
Proof. intros U N. apply (proj1 (proj2 (Groups avail width (map el_s ls) axis z r mo s Inc Len PS))); auto. apply Small. Qed.
Lemma head_ex k : used s k -> exists h, head h k.
Proof.
  intros U. destruct (proj2 (proj2 (Groups avail width (map el_s ls) axis z r mo s Inc Len PS)) k U) as (h & A & B & C & _).
  exists h. split; [exact A|]. split; [exact B|]. apply head_active; auto.
Qed.
Lemma head_unique h h' k : head h k -> head h' k -> h = h'.
Proof.
  intros (A & B & C) (A' & B' & C'). assert (U : used s k) by exact (linked_inr2 _ _ _ _ C).
  destruct (proj2 (proj2 (Groups avail width (map el_s ls) axis z r mo s Inc Len PS)) k U) as (h0 & _ & _ & _ & _ & Q0).
  rewrite (Q0 h), (Q0 h'); auto; apply head_active; auto.
Qed.
Lemma head_reach h k t : head h k -> (reach s k t <-> in_support (Z.of_nat t) (getSupportSubElt s h)).
Proof.
  intros (A & B & C). rewrite (head_support h t A B). unfold reach. split.
  - intros (m & M & T). exists m. split; [|exact T]. eapply linked_trans; eauto.
  - intros (m & M & T). exists m. split; [|exact T]. eapply linked_trans; [apply linked_sym; exact C|exact M].
Qed.
Lemma act_sym i j : ac (s_state s) i j = true -> ac (s_state s) j i = true.
Proof. apply (proj1 (Symmetric avail width (map el_s ls) axis z r mo s Inc Len PS)). Qed.
Lemma sub_in_axis h t : used s h -> in_support t (getSupportSubElt s h) -> (0 <= t < Z.of_nat (length axis))%Z.
Proof. apply (In_axis avail width (map el_s ls) axis z r mo s Inc Len PS). Qed.
(** the head of k is selected when k is of interest *)
Lemma head_interest li h k : head h k -> (inactive s li h = false <-> of_interest s li k).
Proof.
  intros H. destruct li as [j|]; cbn [inactive of_interest]; [|split; [intros _; exact I|reflexivity]]. rewrite negb_false_iff. destruct H as (A & B & C). split; intros H.
  - apply act_sym in H. apply head_active in H; auto. eapply linked_trans; [apply linked_sym; exact H|exact C].
  - apply act_sym. apply head_active; auto. eapply linked_trans; [exact C|apply linked_sym; exact H].
Qed.
Lemma allout_used : s_allout s = true -> forall k, ~ used s k.
Proof. apply (proj1 (All_outside avail width (map el_s ls) axis z r mo s Inc Len PS)). Qed.

(** what a line adds, as a function *)
Definition val (z' x c : Q) (k : nat) : Q :=
  match nth_error ls k with
  | Some l => match el_fit l with Some A => if Qltb A 0 then 0 else line_value width prof k l z' x c A | None => 0 end
  | None => 0
  end.
Lemma val_adds z' k l x c : nth_error ls k = Some l -> adds width prof k l z' x c (val z' x c k).
Proof.
  intros E. unfold val, adds. rewrite E. destruct (el_fit l) as [A|] eqn:F.
  - destruct (Qltb_spec A 0) as [T|T].
    + right. split; [|reflexivity]. intros A' (E' & P). rewrite F in E'. inversion E'; subst. lra.
    + left. exists A. split; [|reflexivity]. split; [exact F|]. lra.
  - right. split; [|reflexivity]. intros A' (E' & _). congruence.
Qed.
Lemma line_flux_ok z' x c k l : nth_error ls k = Some l -> (forall A, shown l A -> avail (line_center l z') = true) ->
  exists y, line_flux avail width prof z' x c k l = Ok y /\ y == val z' x c k.
Proof.
  intros E K. unfold line_flux, val. rewrite E. destruct (el_fit l) as [A|] eqn:F; [|exists 0; split; reflexivity].
  destruct (Qltb_spec A 0) as [T|T]; [exists 0; split; reflexivity|].
  unfold GetLineProfileAtRedshift. change (GetObservedPosition (el_s l) z' false) with (line_center l z').
  rewrite (K A) by (split; [exact F|lra]). cbn [negb rbind]. eexists. split; [reflexivity|]. unfold line_value, sign, profile_at. destruct (el_neg l); ring.
Qed.
(** the redshift of the synthesis may differ from that of the supports *)
Lemma model_at z' x c h : lsf_known avail s ls z' -> used s h ->
  exists y, getModelAtLambda avail width prof s ls x z' c (Some h) = Ok y /\ y == sumn (fun k => if (s_out s k || inactive s (Some h) k)%bool then 0 else val z' x c k) (length ls).
Proof.
  intros K U. unfold getModelAtLambda. destruct (s_allout s) eqn:E; [exfalso; exact (allout_used E h U)|].
  apply sum_lines_sum. intros i l N T. apply line_flux_ok; [exact N|]. intros A SH. apply (K i l A N); [|exact SH].
  apply used_iff. split; [apply nth_error_len in N; exact N|]. apply orb_false_iff in T. tauto.
Qed.

Definition in_sub (h t : nat) : bool := ((sn (s_state s) h <=? Z.of_nat t) && (Z.of_nat t <=? en (s_state s) h))%Z%bool.
Lemma in_sub_spec h t : in_sub h t = true <-> in_support (Z.of_nat t) (getSupportSubElt s h).
Proof. unfold in_sub, in_support, getSupportSubElt. cbn [fst snd]. rewrite andb_true_iff, !Z.leb_le. apply iff_refl. Qed.
(** the contribution of line k through the support h *)
Definition part (li : option nat) (z' x c : Q) (t h k : nat) : Q :=
  if (s_out s h || inactive s li h || negb (in_sub h t))%bool then 0
  else if (s_out s k || inactive s (Some h) k)%bool then 0 else val z' x c k.
Lemma part_zero li z' x c t h k : (k < length ls)%nat -> (h < length ls)%nat -> ~ head h k -> part li z' x c t h k = 0.
Proof.
  intros K H N. unfold part. destruct (s_out s h) eqn:O; [reflexivity|]. cbn [orb]. destruct (inactive s li h) eqn:I; [reflexivity|]. cbn [orb].
  destruct (in_sub h t) eqn:T; [|reflexivity]. cbn [negb]. destruct (s_out s k) eqn:O'; [reflexivity|]. cbn [orb].
  destruct (inactive s (Some h) k) eqn:I'; [reflexivity|]. exfalso. apply N. apply in_sub_spec in T.
  assert (U : used s h) by (apply used_iff; auto). assert (NE : nonempty (getSupportSubElt s h)) by (destruct T; unfold nonempty; lia).
  split; [exact U|]. split; [exact NE|]. apply head_active; auto. cbn [inactive] in I'. rewrite negb_false_iff in I'. exact I'.
Qed.
Definition lines_part li z' x c t k : Q := sumn (fun h => part li z' x c t h k) (length ls).
Lemma lines_part_at li z' x c t : lines_at width prof s ls li z' x c t (lines_part li z' x c t).
Proof.
  intros k l N. pose proof (nth_error_len _ _ _ N) as K. unfold lines_part. split.
  - intros (U & I & R). destruct (head_ex k U) as (h & H). assert (Hh : (h < length ls)%nat) by (destruct H as (A & _); apply used_iff in A; tauto).
    assert (E : sumn (fun h => part li z' x c t h k) (length ls) == val z' x c k).
    { rewrite (sumn_one _ _ h Hh).
      - unfold part. pose proof H as (A & B & C). destruct (proj1 (used_iff h) A) as (_ & A'). destruct (proj1 (used_iff k) U) as (_ & U'). rewrite A', U'.
        rewrite (proj2 (head_interest li h k H) I). rewrite (proj2 (in_sub_spec h t) (proj1 (head_reach h k t H) R)). cbn [orb negb inactive].
        rewrite (proj2 (head_active h k A B) C). reflexivity.
      - intros h' H' D. rewrite part_zero; [reflexivity|exact K|exact H'|]. intros G. apply D. eapply head_unique; eauto. }
    destruct (val_adds z' k l x c N) as [(A & SH & V)|(NS & V)]; [left; exists A; split; [exact SH|]|right; split; [exact NS|]]; rewrite E; exact V.
  - intros NO. rewrite (sumn_ext _ (fun _ => 0)); [apply sumn_zero|]. intros h Hh.
    destruct (Qeq_dec (part li z' x c t h k) 0) as [E|E]; [exact E|]. exfalso. apply NO.
    unfold part in E. destruct (s_out s h) eqn:O; [exfalso; apply E; reflexivity|]. cbn [orb] in E. destruct (inactive s li h) eqn:I; [exfalso; apply E; reflexivity|]. cbn [orb] in E.
    destruct (in_sub h t) eqn:T; [|exfalso; apply E; reflexivity]. cbn [negb] in E. destruct (s_out s k) eqn:O'; [exfalso; apply E; reflexivity|]. cbn [orb] in E.
    destruct (inactive s (Some h) k) eqn:I'; [exfalso; apply E; reflexivity|]. apply in_sub_spec in T.
    assert (U : used s h) by (apply used_iff; auto). assert (NE : nonempty (getSupportSubElt s h)) by (destruct T; unfold nonempty; lia).
    assert (H : head h k). { split; [exact U|]. split; [exact NE|]. apply head_active; auto. cbn [inactive] in I'. rewrite negb_false_iff in I'. exact I'. }
    split; [apply used_iff; auto|]. split; [apply (head_interest li h k H); exact I|apply (head_reach h k t H); exact T].
Qed.

Lemma add_sample_ok z' h cont n flux t : lsf_known avail s ls z' -> used s h -> length axis = n -> length cont = n -> length flux = n -> in_support (Z.of_nat t) (getSupportSubElt s h) ->
  exists flux', add_sample avail width prof s ls axis cont z' h flux (Z.of_nat t) = Ok flux' /\
    added flux flux' (fun u => if Z.eqb (Z.of_nat t) (Z.of_nat u) then sumn (fun k => if (s_out s k || inactive s (Some h) k)%bool then 0 else val z' (nth u axis 0) (nth u cont 0) k) (length ls) else 0).
Proof.
  intros K U LA LC LF T. pose proof (sub_in_axis h _ U T) as B. assert (Tn : (t < n)%nat) by lia.
  assert (EX : exists x, nth_error axis t = Some x) by (destruct (nth_error axis t) eqn:E; [eauto|apply nth_error_None in E; lia]).
  assert (EC : exists c, nth_error cont t = Some c) by (destruct (nth_error cont t) eqn:E; [eauto|apply nth_error_None in E; lia]).
  assert (EF : exists v, nth_error flux t = Some v) by (destruct (nth_error flux t) eqn:E; [eauto|apply nth_error_None in E; lia]).
  destruct EX as (x & EX), EC as (c & EC), EF as (v & EF). unfold add_sample. rewrite (zget_nat _ _ _ EX), (zget_nat _ _ _ EC). cbn [rbind].
  destruct (model_at z' x c h K U) as (y & -> & Y). cbn [rbind]. rewrite (zget_nat _ _ _ EF). cbn [rbind].
  destruct (zset_nat flux t v (v + y) EF) as (f' & -> & L' & N'). exists f'. split; [reflexivity|]. split; [exact L'|].
  intros u w W. rewrite N'. destruct (Nat.eqb_spec u t) as [->|D].
  - exists (v + y). split; [reflexivity|]. rewrite Z.eqb_refl. rewrite EF in W. inversion W; subst. rewrite (nth_error_nth _ _ 0 EX), (nth_error_nth _ _ 0 EC). rewrite Y. reflexivity.
  - exists w. split; [exact W|]. destruct (Z.eqb_spec (Z.of_nat t) (Z.of_nat u)); [lia|lra].
Qed.

Lemma Add_lines z' li flux cont : lsf_known avail s ls z' -> length cont = length axis -> length flux = length axis ->
  exists flux', addToSpectrumModel avail width prof s ls axis flux cont z' li = Ok flux' /\
    added flux flux' (fun t => sumn (lines_part li z' (nth t axis 0) (nth t cont 0) t) (length ls)).
Proof.
  intros K LC LF. unfold addToSpectrumModel. destruct (s_allout s) eqn:AO.
  - exists flux. split; [reflexivity|]. apply added_refl. intros t. rewrite (sumn_ext _ (fun _ => 0)); [apply sumn_zero|]. intros k Kk. unfold lines_part.
    rewrite (sumn_ext _ (fun _ => 0)); [apply sumn_zero|]. intros h Hh. rewrite part_zero; [reflexivity|exact Kk|exact Hh|]. intros (A & _). exact (allout_used AO h A).
  - rewrite Size.
    destruct (rfold_added (fun fl h => if s_out s h then Ok fl else if inactive s li h then Ok fl
        else rfold (add_sample avail width prof s ls axis cont z' h) (zrange (sn (s_state s) h) (en (s_state s) h)) fl)
      (fun h t => if (s_out s h || inactive s li h || negb (in_sub h t))%bool then 0
         else sumn (fun k => if (s_out s k || inactive s (Some h) k)%bool then 0 else val z' (nth t axis 0) (nth t cont 0) k) (length ls))
      (length axis) (seq 0 (length ls)) flux) as (fx & E & A).
    + intros h fl H LFl. apply in_seq in H. destruct (s_out s h) eqn:O.
      { exists fl. split; [reflexivity|]. apply added_refl. reflexivity. }
      destruct (inactive s li h) eqn:I. { exists fl. split; [reflexivity|]. apply added_refl. reflexivity. }
      assert (U : used s h) by (apply used_iff; split; [lia|exact O]).
      destruct (rfold_added (add_sample avail width prof s ls axis cont z' h)
        (fun i u => if Z.eqb i (Z.of_nat u) then sumn (fun k => if (s_out s k || inactive s (Some h) k)%bool then 0 else val z' (nth u axis 0) (nth u cont 0) k) (length ls) else 0)
        (length axis) (zrange (sn (s_state s) h) (en (s_state s) h)) fl) as (f2 & E2 & A2).
      * intros i f1 Hi L1. apply zrange_in in Hi. assert (IS : in_support i (getSupportSubElt s h)) by exact Hi.
        pose proof (sub_in_axis h i U IS) as B. assert (Ei : i = Z.of_nat (Z.to_nat i)) by lia. rewrite Ei in IS |- *.
        apply (add_sample_ok z' h cont (length axis)); auto.
      * exact LFl.
      * exists f2. split; [exact E2|]. eapply added_ext; [exact A2|]. intros u Hu. cbn [orb].
        rewrite (zrange_pick _ _ (Z.of_nat u) (fun _ => sumn (fun k => if (s_out s k || inactive s (Some h) k)%bool then 0 else val z' (nth u axis 0) (nth u cont 0) k) (length ls))).
        unfold in_sub. destruct ((sn (s_state s) h <=? Z.of_nat u)%Z && (Z.of_nat u <=? en (s_state s) h)%Z)%bool; reflexivity.
    + exact LF.
    + exists fx. split; [exact E|]. eapply added_ext; [exact A|]. intros t Ht. rewrite lsum_seq. unfold lines_part.
      rewrite <- (sumn_swap (fun h k => part li z' (nth t axis 0) (nth t cont 0) t h k)). apply sumn_ext. intros h Hh. unfold part.
      destruct (s_out s h || inactive s li h || negb (in_sub h t))%bool; [|reflexivity]. symmetry. apply sumn_zero.
Qed.

(** * the statement of C66 *)
Lemma Lines_added z' li flux cont : lsf_known avail s ls z' -> length cont = length axis -> length flux = length axis ->
  exists flux', addToSpectrumModel avail width prof s ls axis flux cont z' li = Ok flux' /\ length flux' = length flux /\
    forall t x c v, nth_error axis t = Some x -> nth_error cont t = Some c -> nth_error flux t = Some v ->
      exists v' g, nth_error flux' t = Some v' /\ lines_at width prof s ls li z' x c t g /\ v' == v + sumn g (length ls).
Proof.
  intros K LC LF. destruct (Add_lines z' li flux cont K LC LF) as (f' & E & L' & A). exists f'. split; [exact E|]. split; [exact L'|].
  intros t x c v X C V. destruct (A t v V) as (v' & E' & V'). exists v', (lines_part li z' x c t). split; [exact E'|]. split; [apply lines_part_at|].
  rewrite (nth_error_nth _ _ 0 X), (nth_error_nth _ _ 0 C) in V'. exact V'.
Qed.
End Prep.
