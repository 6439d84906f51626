From Verif Require Import Base RangeModel AxisModel AxisProofs ElemModel ElemSpec ElemProofs ElemProofs2 ElemProofs3 ElemProofs4 ElemProofs5 EfitModel EfitSpec EfitProofs EfitProofs2.
Open Scope Q_scope.

Lemma Forall2_length {A B} (R : A -> B -> Prop) l m : Forall2 R l m -> length l = length m.
Proof. induction 1; cbn [length]; congruence. Qed.
(** * replacing samples *)
Definition replaced (f g cont : list Q) (p : nat -> bool) : Prop :=
  length g = length f /\ forall t, (t < length f)%nat -> nth_error g t = if p t then nth_error cont t else nth_error f t.
Lemma rfold_replaced {A} (f : list Q -> A -> res (list Q)) (P : A -> nat -> bool) cont n l : forall flux,
  (forall x fl, In x l -> length fl = n -> exists fl', f fl x = Ok fl' /\ replaced fl fl' cont (P x)) -> length flux = n ->
  exists flux', rfold f l flux = Ok flux' /\ replaced flux flux' cont (fun t => existsb (fun x => P x t) l).
Proof.
  induction l as [|x t IH]; intros flux H L; cbn [rfold existsb].
  - exists flux. split; [reflexivity|]. split; [reflexivity|]. intros; reflexivity.
  - destruct (H x flux (or_introl eq_refl) L) as (f1 & -> & L1 & A1). cbn [rbind].
    destruct (IH f1) as (f2 & E & L2 & A2); [intros; apply H; [right; auto|auto]|congruence|].
    exists f2. split; [exact E|]. split; [congruence|]. intros u U. rewrite A2 by lia. rewrite (A1 u U).
    destruct (P x u); cbn [orb]; [|reflexivity]. destruct (existsb (fun x0 => P x0 u) t); reflexivity.
Qed.
Lemma existsb_zrange a b u : existsb (fun i => Z.eqb i (Z.of_nat u)) (zrange a b) = ((a <=? Z.of_nat u) && (Z.of_nat u <=? b))%Z%bool.
Proof.
  apply eq_true_iff_eq. rewrite existsb_exists, andb_true_iff, !Z.leb_le. split.
  - intros (i & I & E). apply Z.eqb_eq in E. apply zrange_in in I. lia.
  - intros H. exists (Z.of_nat u). split; [apply zrange_in; lia|apply Z.eqb_refl].
Qed.

Section Prep.
Variables (avail : Q -> bool) (width : Q -> Q) (prof : nat -> Q -> Q -> Q -> Q) (axis : list Q) (z : Q) (r : range) (mo : Q) (ls : list eline) (s : support).
Hypothesis Inc : strictly_increasing axis.
Hypothesis Len : (0 < length axis)%nat.
Hypothesis Prep : prepared_for avail width axis z r mo ls s.
Let used_iff := used_iff avail width axis z r mo ls s Prep.
Let sub_in_axis := sub_in_axis avail width axis z r mo ls s Inc Len Prep.
Let head_ex := head_ex avail width axis z r mo ls s Inc Len Prep.
Let head_interest := head_interest avail width axis z r mo ls s Inc Len Prep.
Let head_reach := head_reach avail width axis z r mo ls s Inc Len Prep.

Definition covb (li : option nat) (t : nat) : bool :=
  existsb (fun h => negb (s_out s h || inactive s li h) && in_sub s h t)%bool (seq 0 (length ls)).
Lemma covb_spec li t : covb li t = true <-> covered s li t.
Proof.
  unfold covb, covered. rewrite existsb_exists. split.
  - intros (h & H & E). apply in_seq in H. apply andb_true_iff in E. destruct E as (E & T). apply negb_true_iff in E. apply orb_false_iff in E. destruct E as (O & I).
    apply in_sub_spec in T. assert (U : used s h) by (apply used_iff; split; [lia|exact O]). assert (NE : nonempty (getSupportSubElt s h)) by (destruct T; unfold nonempty; lia).
    assert (Hd : head s h h) by (split; [exact U|split; [exact NE|constructor; exact U]]).
    exists h. split; [exact U|]. split; [apply (head_interest li h h Hd); exact I|apply (head_reach h h t Hd); exact T].
  - intros (k & U & I & R). destruct (head_ex k U) as (h & Hd). pose proof Hd as (A & _). destruct (proj1 (used_iff h) A) as (Hl & O).
    exists h. split; [apply in_seq; lia|]. rewrite O, (proj2 (head_interest li h k Hd) I). cbn [orb negb andb]. apply in_sub_spec. apply (head_reach h k t Hd). exact R.
Qed.
Lemma init_sample_ok cont flux t : length cont = length axis -> length flux = length axis -> (t < length axis)%nat ->
  exists flux', init_sample cont flux (Z.of_nat t) = Ok flux' /\ replaced flux flux' cont (fun u => Z.eqb (Z.of_nat t) (Z.of_nat u)).
Proof.
  intros LC LF T.
  assert (EC : exists c, nth_error cont t = Some c) by (destruct (nth_error cont t) eqn:E; [eauto|apply nth_error_None in E; lia]).
  assert (EF : exists v, nth_error flux t = Some v) by (destruct (nth_error flux t) eqn:E; [eauto|apply nth_error_None in E; lia]).
  destruct EC as (c & EC), EF as (v & EF). unfold init_sample. rewrite (zget_nat _ _ _ EC). cbn [rbind].
  destruct (zset_nat flux t v c EF) as (f' & -> & L' & N'). exists f'. split; [reflexivity|]. split; [exact L'|].
  intros u U. rewrite N'. destruct (Nat.eqb_spec u t) as [->|D]; [rewrite Z.eqb_refl; symmetry; exact EC|].
  destruct (Z.eqb_spec (Z.of_nat t) (Z.of_nat u)); [lia|reflexivity].
Qed.
Lemma Init li flux cont : length cont = length axis -> length flux = length axis ->
  exists flux', initSpectrumModel s flux cont li = Ok flux' /\ replaced flux flux' cont (covb li).
Proof.
  intros LC LF. unfold initSpectrumModel. destruct (s_allout s) eqn:AO.
  - exists flux. split; [reflexivity|]. split; [reflexivity|]. intros t T. destruct (covb li t) eqn:E; [|reflexivity]. exfalso.
    apply covb_spec in E. destruct E as (k & U & _). exact (allout_used avail width axis z r mo ls s Inc Len Prep AO k U).
  - rewrite (Size avail width axis z r mo ls s Prep).
    destruct (rfold_replaced (fun fl h => if s_out s h then Ok fl else if inactive s li h then Ok fl
        else rfold (init_sample cont) (zrange (sn (s_state s) h) (en (s_state s) h)) fl)
      (fun h t => negb (s_out s h || inactive s li h) && in_sub s h t)%bool cont (length axis) (seq 0 (length ls)) flux) as (fx & E & A).
    + intros h fl H LFl. apply in_seq in H. destruct (s_out s h) eqn:O.
      { exists fl. split; [reflexivity|]. split; [reflexivity|]. intros; reflexivity. }
      destruct (inactive s li h) eqn:I. { exists fl. split; [reflexivity|]. split; [reflexivity|]. intros; reflexivity. }
      assert (U : used s h) by (apply used_iff; split; [lia|exact O]).
      destruct (rfold_replaced (init_sample cont) (fun i u => Z.eqb i (Z.of_nat u)) cont (length axis) (zrange (sn (s_state s) h) (en (s_state s) h)) fl) as (f2 & E2 & L2 & A2).
      * intros i f1 Hi L1. apply zrange_in in Hi. assert (IS : in_support i (getSupportSubElt s h)) by exact Hi.
        pose proof (sub_in_axis h i U IS) as B. assert (Ei : i = Z.of_nat (Z.to_nat i)) by lia. rewrite Ei. apply init_sample_ok; auto. lia.
      * exact LFl.
      * exists f2. split; [exact E2|]. split; [exact L2|]. intros u Hu. rewrite (A2 u Hu), existsb_zrange. reflexivity.
    + exact LF.
    + exists fx. split; [exact E|]. exact A.
Qed.
Lemma Init_model li flux cont : length cont = length axis -> length flux = length axis ->
  exists flux', initSpectrumModel s flux cont li = Ok flux' /\ length flux' = length flux /\
    forall t, (t < length flux)%nat -> (covered s li t -> nth_error flux' t = nth_error cont t) /\ (~ covered s li t -> nth_error flux' t = nth_error flux t).
Proof.
  intros LC LF. destruct (Init li flux cont LC LF) as (f' & E & L' & A). exists f'. split; [exact E|]. split; [exact L'|].
  intros t T. specialize (A t T). pose proof (covb_spec li t) as C. split; intros H.
  - rewrite A, (proj2 C H). reflexivity.
  - rewrite A. destruct (covb li t) eqn:B; [exfalso; apply H, C, eq_refl|reflexivity].
Qed.
(** a line not in its group's support adds nothing *)
Lemma uncovered_zero z' x c t g : ~ covered s None t -> lines_at width prof s ls None z' x c t g -> sumn g (length ls) == 0.
Proof.
  intros N G. rewrite (sumn_ext _ (fun _ => 0)); [apply sumn_zero|]. intros k K.
  destruct (nth_error ls k) as [l|] eqn:E; [|apply nth_error_None in E; lia]. apply (G k l E). intros (U & _ & R). apply N. exists k. split; [exact U|]. split; [exact I|exact R].
Qed.
Lemma lines_unique li z' x c t g g' : lines_at width prof s ls li z' x c t g -> lines_at width prof s ls li z' x c t g' -> sumn g (length ls) == sumn g' (length ls).
Proof.
  intros G G'. apply sumn_ext. intros k K. destruct (nth_error ls k) as [l|] eqn:E; [|apply nth_error_None in E; lia].
  pose proof (lines_part_at avail width prof axis z r mo ls s Inc Len Prep li z' x c t) as P.
  assert (D : forall h, lines_at width prof s ls li z' x c t h -> h k == lines_part width prof ls s li z' x c t k).
  { intros h Hh. destruct (Qeq_dec (lines_part width prof ls s li z' x c t k) 0) as [Z0|NZ].
    - destruct (P k l E) as (P1 & P2). destruct (Hh k l E) as (H1 & H2).
      destruct (Qeq_dec (h k) 0) as [Hz|Hn]; [rewrite Hz, Z0; reflexivity|].
      assert (DN : ~ ~ (used s k /\ of_interest s li k /\ reach s k t)) by (intros F; apply Hn, H2, F).
      destruct (Qeq_dec (h k) (lines_part width prof ls s li z' x c t k)) as [Q1|Q1]; [exact Q1|]. exfalso. apply DN. intros F. apply Q1.
      destruct (H1 F) as [(A & SA & V)|(NA & V)], (P1 F) as [(B & SB & W)|(NB & W)].
      + destruct SA as (SA & _), SB as (SB & _). rewrite SA in SB. inversion SB; subst. rewrite V, W. reflexivity.
      + exfalso. exact (NB A SA). + exfalso. exact (NA B SB). + rewrite V, W. reflexivity.
    - destruct (P k l E) as (P1 & P2). destruct (Hh k l E) as (H1 & H2).
      destruct (Qeq_dec (h k) (lines_part width prof ls s li z' x c t k)) as [Q1|Q1]; [exact Q1|]. exfalso. apply NZ, P2. intros F. apply Q1.
      destruct (H1 F) as [(A & SA & V)|(NA & V)], (P1 F) as [(B & SB & W)|(NB & W)].
      + destruct SA as (SA & _), SB as (SB & _). rewrite SA in SB. inversion SB; subst. rewrite V, W. reflexivity.
      + exfalso. exact (NB A SA). + exfalso. exact (NA B SB). + rewrite V, W. reflexivity. }
  rewrite (D g G), (D g' G'). reflexivity.
Qed.
End Prep.

(** * the spectrum *)
Section Spec.
Variables (avail : Q -> bool) (width : Q -> Q) (prof : nat -> Q -> Q -> Q -> Q) (axis : list Q) (z : Q) (r : range) (mo : Q).
Hypothesis Inc : strictly_increasing axis.
Hypothesis Len : (0 < length axis)%nat.
Notation good := (good_element avail width axis z r mo).
Notation lines e := (lines_at width prof (x_s e) (x_ls e) None z).

Fixpoint esum (es : list element) (d : element -> nat -> Q) (t : nat) : Q := match es with [] => 0 | e :: r => d e t + esum r d t end.
Definition dfun (cont : list Q) (e : element) (t : nat) : Q := sumn (lines_part width prof (x_ls e) (x_s e) None z (nth t axis 0) (nth t cont 0) t) (length (x_ls e)).

Lemma add_all filter es cont : length cont = length axis -> Forall good es -> forall flux, length flux = length axis ->
  exists flux', rfold (fun flux e => if selected filter e then addToSpectrumModel avail width prof (x_s e) (x_ls e) axis flux cont z None else Ok flux) es flux = Ok flux' /\
    added flux flux' (esum (List.filter (selected filter) es) (dfun cont)).
Proof.
  intros LC. induction es as [|e es IH]; intros G flux LF; cbn [rfold List.filter].
  - exists flux. split; [reflexivity|]. apply added_refl. reflexivity.
  - pose proof (Forall_inv G) as (P & K). pose proof (Forall_inv_tail G) as G'. destruct (selected filter e) eqn:S.
    + destruct (Add_lines avail width prof axis z r mo (x_ls e) (x_s e) Inc Len P z None flux cont K LC LF) as (f1 & -> & A). cbn [rbind].
      destruct (IH G' f1) as (f2 & E & A2); [destruct A; congruence|]. exists f2. split; [exact E|]. cbn [esum]. exact (added_trans _ _ _ _ _ A A2).
    + cbn [rbind]. apply IH; auto.
Qed.
Lemma esum_lines es cont t x c : Forall good es -> nth_error axis t = Some x -> nth_error cont t = Some c ->
  exists gs, Forall2 (fun e g => lines e x c t g) es gs /\ esum es (dfun cont) t == all_lines es gs.
Proof.
  intros G X C. induction es as [|e es IH].
  - exists []. split; [constructor|reflexivity].
  - destruct (IH (Forall_inv_tail G)) as (gs & F & E). pose proof (Forall_inv G) as (P & K).
    exists (lines_part width prof (x_ls e) (x_s e) None z x c t :: gs). split.
    + constructor; [apply (lines_part_at avail width prof axis z r mo _ _ Inc Len P)|exact F].
    + cbn [esum all_lines]. rewrite E. unfold dfun. rewrite (nth_error_nth _ _ 0 X), (nth_error_nth _ _ 0 C). reflexivity.
Qed.
Lemma of_type_spec type es : of_type type es = List.filter (selected type) es.
Proof.
  destruct type as [[|]|]; cbn [of_type]; [| |induction es as [|e t IH]; cbn [List.filter selected]; [reflexivity|rewrite <- IH; reflexivity]];
    apply filter_ext; intros e; cbn [selected]; destruct (x_em e); reflexivity.
Qed.
Lemma Refresh filter es cont : length cont = length axis -> Forall good es ->
  exists model, refreshModel avail width prof es axis cont z filter = Ok model /\ length model = length axis /\
    forall t x c, nth_error axis t = Some x -> nth_error cont t = Some c -> exists v, nth_error model t = Some v /\ is_model_at width prof (of_type filter es) z x c t v.
Proof.
  rewrite of_type_spec. intros LC G. destruct (add_all filter es cont LC G cont LC) as (m & E & L & A). exists m. split; [exact E|]. split; [congruence|].
  intros t x c X C. destruct (A t c C) as (v & V & EV). exists v. split; [exact V|].
  assert (G' : Forall good (List.filter (selected filter) es)). { apply Forall_forall. intros e I. apply filter_In in I. apply (proj1 (Forall_forall _ _) G). tauto. }
  destruct (esum_lines _ cont t x c G' X C) as (gs & F & Eg). exists gs. split; [exact F|]. rewrite EV, Eg. reflexivity.
Qed.
Lemma init_all li es cont : length cont = length axis -> Forall good es -> forall flux, length flux = length axis ->
  exists flux', rfold (fun flux e => initSpectrumModel (x_s e) flux cont li) es flux = Ok flux' /\ replaced flux flux' cont (fun t => existsb (fun e => covb (x_ls e) (x_s e) li t) es).
Proof.
  intros LC G flux LF. apply (rfold_replaced (fun fl e => initSpectrumModel (x_s e) fl cont li) (fun e => covb (x_ls e) (x_s e) li) cont (length axis)); [|exact LF].
  intros e fl I L. pose proof (proj1 (Forall_forall _ _) G e I) as (P & K). exact (Init avail width axis z r mo (x_ls e) (x_s e) Inc Len P li fl cont LC L).
Qed.
Lemma good_cov es t : Forall good es -> (existsb (fun e => covb (x_ls e) (x_s e) None t) es = true <-> covered_by es t).
Proof.
  intros G. rewrite existsb_exists. unfold covered_by. split; intros (e & I & C); exists e; (split; [exact I|]);
  pose proof (proj1 (Forall_forall _ _) G e I) as (P & K); apply (covb_spec avail width axis z r mo (x_ls e) (x_s e) Inc Len P); exact C.
Qed.
Lemma filter_all es : List.filter (selected None) es = es.
Proof. induction es as [|e t IH]; cbn [List.filter selected]; [reflexivity|]. rewrite IH. reflexivity. Qed.
Lemma Refresh_under es cont model : length cont = length axis -> length model = length axis -> Forall good es ->
  exists model', refreshModelUnderElements avail width prof es axis model cont z None = Ok model' /\ length model' = length axis /\
    forall t x c v, nth_error axis t = Some x -> nth_error cont t = Some c -> nth_error model t = Some v -> exists v', nth_error model' t = Some v' /\
      (covered_by es t -> is_model_at width prof es z x c t v') /\ (~ covered_by es t -> v' == v).
Proof.
  intros LC LM G. unfold refreshModelUnderElements. destruct (init_all None es cont LC G model LM) as (m1 & -> & L1 & R1). cbn [rbind].
  destruct (add_all None es cont LC G m1) as (m2 & E & L2 & A2); [congruence|]. exists m2. split; [exact E|]. split; [congruence|].
  rewrite filter_all in A2. intros t x c v X C V. pose proof (nth_error_len _ _ _ V) as T. specialize (R1 t T).
  destruct (esum_lines es cont t x c G X C) as (gs & F & Eg). pose proof (good_cov es t G) as CV.
  destruct (existsb (fun e => covb (x_ls e) (x_s e) None t) es) eqn:B.
  - rewrite C in R1. destruct (A2 t c R1) as (v' & V' & EV). exists v'. split; [exact V'|]. split; [|intros N; exfalso; apply N, CV, eq_refl].
    intros _. exists gs. split; [exact F|]. rewrite EV, Eg. reflexivity.
  - rewrite V in R1. destruct (A2 t v R1) as (v' & V' & EV). exists v'. split; [exact V'|]. split; [intros N; apply CV in N; discriminate|].
    intros N. rewrite EV, Eg. assert (Z0 : all_lines es gs == 0); [|rewrite Z0; lra]. clear -F N G Inc Len. revert N G. induction F as [|e g es gs H F IH]; intros N G; [reflexivity|].
    cbn [all_lines]. pose proof (Forall_inv G) as (P & K). rewrite (uncovered_zero width prof axis (x_ls e) (x_s e) Len z x c t g); [|intros D; apply N; exists e; split; [left; reflexivity|exact D]|exact H].
    rewrite IH; [lra|intros (e' & I & D); apply N; exists e'; split; [right; exact I|exact D]|exact (Forall_inv_tail G)].
Qed.
Lemma model_unique es x c t v v' : Forall good es -> is_model_at width prof es z x c t v -> is_model_at width prof es z x c t v' -> v == v'.
Proof.
  intros G (gs & F & V) (gs' & F' & V'). rewrite V, V'. assert (E : all_lines es gs == all_lines es gs'); [|rewrite E; reflexivity]. clear V V'.
  revert gs' F'. induction F as [|e g es gs H F IH]; intros gs' F'; inversion F' as [|a b c1 d H1 H2]; [reflexivity|]. cbn [all_lines].
  pose proof (Forall_inv G) as (P & K). rewrite (lines_unique avail width prof axis z r mo (x_ls e) (x_s e) Inc Len P None z x c t g b H H1).
  rewrite (IH (Forall_inv_tail G) d H2). reflexivity.
Qed.
Lemma all_lines_app es gs es' gs' : length es = length gs -> all_lines (es ++ es') (gs ++ gs') == all_lines es gs + all_lines es' gs'.
Proof.
  revert gs. induction es as [|e es IH]; intros [|g gs] L; cbn [all_lines app length] in *; try discriminate; [lra|]. rewrite IH by lia. lra.
Qed.
Lemma uncovered_all es gs x c t : Forall good es -> Forall2 (fun e g => lines e x c t g) es gs -> ~ covered_by es t -> all_lines es gs == 0.
Proof.
  intros G F. induction F as [|e g es gs H F IH]; intros N; [reflexivity|]. cbn [all_lines]. pose proof (Forall_inv G) as (P & K).
  rewrite (uncovered_zero width prof axis (x_ls e) (x_s e) Len z x c t g); [|intros D; apply N; exists e; split; [left; reflexivity|exact D]|exact H].
  rewrite IH; [lra|exact (Forall_inv_tail G)|intros (e' & I & D); apply N; exists e'; split; [right; exact I|exact D]].
Qed.
Lemma covered_dec es t : Forall good es -> covered_by es t \/ ~ covered_by es t.
Proof. intros G. pose proof (good_cov es t G) as C. destruct (existsb (fun e => covb (x_ls e) (x_s e) None t) es); [left; apply C; reflexivity|right; intros D; apply C in D; discriminate]. Qed.
(** refreshing the elements which changed gives the model of all the elements, when no sample is in the supports of a changed element and of another one *)
Lemma Refresh_local old new others cont model : length cont = length axis -> Forall good old -> Forall good new -> Forall good others ->
  Forall2 (fun a b => x_s a = x_s b) old new -> (forall t, ~ (covered_by new t /\ covered_by others t)) ->
  refreshModel avail width prof (old ++ others) axis cont z None = Ok model ->
  exists model', refreshModelUnderElements avail width prof new axis model cont z None = Ok model' /\ length model' = length axis /\
    forall t x c, nth_error axis t = Some x -> nth_error cont t = Some c -> exists v, nth_error model' t = Some v /\ is_model_at width prof (new ++ others) z x c t v.
Proof.
  intros LC GO GN GT SM D RM. assert (G1 : Forall good (old ++ others)) by (apply Forall_app; auto).
  destruct (Refresh None (old ++ others) cont LC G1) as (m & E & LM & V). cbn [of_type] in V. rewrite E in RM. inversion RM; subst m. clear RM E.
  destruct (Refresh_under new cont model LC LM GN) as (m' & E' & L' & V'). exists m'. split; [exact E'|]. split; [exact L'|].
  intros t x c X C. destruct (V t x c X C) as (v & VV & M). destruct (V' t x c v X C VV) as (v' & VV' & CY & CN). exists v'. split; [exact VV'|].
  destruct (esum_lines others cont t x c GT X C) as (go & FO & _).
  destruct (covered_dec new t GN) as [CV|NC].
  - destruct (CY CV) as (gn & FN & EN). exists (gn ++ go). split; [apply Forall2_app; auto|]. pose proof (all_lines_app new gn others go (Forall2_length _ _ _ FN)) as E2.
    assert (NO : ~ covered_by others t) by (intros H; exact (D t (conj CV H))). pose proof (uncovered_all others go x c t GT FO NO) as E3. lra.
  - destruct (esum_lines new cont t x c GN X C) as (gn & FN & _). exists (gn ++ go). split; [apply Forall2_app; auto|].
    rewrite (CN NC). destruct M as (gs & FS & EM). apply Forall2_app_inv_l in FS. destruct FS as (g1 & g2 & F1 & F2 & ->). pose proof (all_lines_app old g1 others g2 (Forall2_length _ _ _ F1)) as E1. pose proof (all_lines_app new gn others go (Forall2_length _ _ _ FN)) as E2.
    pose proof (uncovered_all new gn x c t GN FN NC) as E3.
    assert (NO : ~ covered_by old t). { intros (e & I & CE). apply NC. clear -SM I CE. induction SM as [|a b la lb S SM IH]; [destruct I|]. destruct I as [<-|I].
      - exists b. split; [left; reflexivity|]. rewrite <- S. exact CE. - destruct (IH I) as (e' & I' & C'). exists e'. split; [right; exact I'|exact C']. }
    pose proof (uncovered_all old g1 x c t GO F1 NO) as E4.
    assert (EQ : c + all_lines others g2 == c + all_lines others go). { apply (model_unique others x c t); [exact GT|exists g2; split; [exact F2|reflexivity]|exists go; split; [exact FO|reflexivity]]. }
    lra.
Qed.
End Spec.
