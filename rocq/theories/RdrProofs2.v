(** Tables and filters (C96). *)
From Coq Require Import String Permutation Sorted.
From Verif Require Import Base RdrModel RdrSpec RdrProofs.
Open Scope string_scope.

(** *** rows of a mask *)
Fixpoint positions (m : list bool) (s : nat) : list nat :=
  match m with [] => [] | b :: m => if b : bool then s :: positions m (S s) else positions m (S s) end.
Lemma positions_in m : forall s k, In k (positions m s) <-> (s <= k)%nat /\ nth_error m (k - s) = Some true.
Proof.
  induction m as [|b m IH]; intros s k.
  - cbn. split; [intros []|]. intros (_ & N). destruct (k - s)%nat; discriminate.
  - assert (R : In k (positions m (S s)) <-> (S s <= k)%nat /\ nth_error (b :: m) (k - s) = Some true).
    { rewrite IH. split; intros (A & B); (split; [exact A|]).
      - replace (k - s)%nat with (S (k - S s)) by lia. exact B.
      - replace (k - s)%nat with (S (k - S s)) in B by lia. exact B. }
    cbn [positions]. destruct b.
    + cbn [In]. rewrite R. split.
      * intros [E|(A & B)]; [subst k; rewrite Nat.sub_diag; split; [lia|reflexivity]|split; [lia|exact B]].
      * intros (A & B). destruct (Nat.eq_dec s k) as [E|E]; [left; exact E|right; split; [lia|exact B]].
    + rewrite R. split; intros (A & B).
      * split; [lia|exact B].
      * split; [|exact B]. destruct (Nat.eq_dec s k) as [E|E]; [|lia]. subst k. rewrite Nat.sub_diag in B. discriminate.
Qed.
Lemma positions_sorted m : forall s, StronglySorted lt (positions m s).
Proof.
  induction m as [|b m IH]; intro s; cbn [positions]; [constructor|]. destruct b; [|apply IH]. constructor; [apply IH|].
  apply Forall_forall. intros k I. apply positions_in in I. lia.
Qed.
Lemma select_rows {A} m : forall s (l l0 : list A), List.length l = List.length m ->
  (forall k, nth_error l0 (s + k) = nth_error l k) ->
  Forall2 (fun k x => nth_error l0 k = Some x) (positions m s) (select m l).
Proof.
  induction m as [|b m IH]; intros s l l0 L H; destruct l as [|a l]; try discriminate; cbn; [constructor|].
  assert (H' : forall k, nth_error l0 (S s + k) = nth_error l k).
  { intro k. specialize (H (S k)). replace (s + S k)%nat with (S s + k)%nat in H by lia. exact H. }
  injection L as L. destruct b; [|apply IH; assumption]. constructor; [|apply IH; assumption].
  specialize (H 0%nat). rewrite Nat.add_0_r in H. exact H.
Qed.
Lemma select_len {A} m : forall (l : list A) s, List.length l = List.length m -> List.length (select m l) = List.length (positions m s).
Proof.
  induction m as [|b m IH]; intros l s L; destruct l as [|a l]; try discriminate; [reflexivity|]. injection L as L. cbn.
  destruct b; cbn; [f_equal|]; apply IH, L.
Qed.
Lemma select_map {A B} (f : A -> B) m : forall l, select m (map f l) = map f (select m l).
Proof. induction m as [|b m IH]; intros [|a l]; try (destruct b; reflexivity); [reflexivity|reflexivity|]. cbn. destruct b; cbn; rewrite IH; reflexivity. Qed.
Lemma cselect_cells m c : cells (cselect m c) = select m (cells c).
Proof. destruct c; cbn; [rewrite select_map|]; reflexivity. Qed.

(** *** several masks *)
Lemma zip_andb a b n P R : decides a n P -> decides b n R -> decides (zip_with andb a b) n (fun k => P k /\ R k).
Proof.
  intros (La & Ha) (Lb & Hb). split; [rewrite zip_len by congruence; exact La|]. intros k K.
  destruct (zip_nth andb a b k) as (x & y & Nx & Ny & Nz); [congruence|lia|]. exists (andb x y). split; [exact Nz|].
  destruct (Ha k K) as (x' & Nx' & X). destruct (Hb k K) as (y' & Ny' & Y).
  assert (x' = x) by congruence. assert (y' = y) by congruence. subst x' y'. rewrite andb_true_iff, X, Y. tauto.
Qed.
Lemma cumulate_spec n : forall (fs : list filt) (ms : list (list bool)) (P : filt -> nat -> Prop) m R,
  Forall2 (fun f m => decides m n (P f)) fs ms -> decides m n R ->
  decides (cumulate m ms) n (fun k => R k /\ forall f, In f fs -> P f k).
Proof.
  induction fs as [|f fs IH]; intros ms P m R F D; inversion F as [|? m1 ? ms1 D1 F1]; subst.
  - cbn. eapply decides_iff; [exact D|]. intros k _. split; [intro X; split; [exact X|intros f []]|intros (X & _); exact X].
  - unfold cumulate. cbn. eapply decides_iff; [apply (IH _ _ _ _ F1 (zip_andb _ _ _ _ _ D D1))|]. intros k _. split.
    + intros ((X & Y) & Z). split; [exact X|]. intros g [E|I]; [subst g; exact Y|apply Z, I].
    + intros (X & Y). split; [split; [exact X|apply Y; left; reflexivity]|intros g I; apply Y; right; exact I].
Qed.

(** *** Filter.apply *)
Definition table_ok (t : table) : Prop := forall name c, dget name (t_cols t) = Some c -> clen c = t_len t.
Definition row_passes (t : table) (k : nat) (f : filt) : Prop :=
  exists c, dget (f_key f) (t_cols t) = Some c /\ meets (f_value f) c k (f_instr f).
Definition rows_kept (t : table) (fs : list filt) (idx : list nat) (t' : table) : Prop :=
  StronglySorted lt idx /\ (forall k, In k idx <-> (k < t_len t)%nat /\ forall f, In f fs -> row_passes t k f) /\
  forall name, match dget name (t_cols t), dget name (t_cols t') with
               | Some c, Some c' => Forall2 (at_row c) idx (cells c')
               | None, None => True
               | _, _ => False
               end.
Lemma dget_map {A B} (g : A -> B) k (d : dict A) : dget k (map (fun e => (fst e, g (snd e))) d) = option_map g (dget k d).
Proof. induction d as [|(k', v) d IH]; [reflexivity|]. cbn. destruct (k =? k'); [reflexivity|exact IH]. Qed.
Lemma seq_lt_sorted n : forall s, StronglySorted lt (seq s n).
Proof. induction n as [|n IH]; intro s; cbn; constructor; [apply IH|]. apply Forall_forall. intros k I. apply in_seq in I. lia. Qed.
Lemma all_rows {A} (l : list A) : forall s l0, (forall k, nth_error l0 (s + k) = nth_error l k) -> Forall2 (fun k x => nth_error l0 k = Some x) (seq s (List.length l)) l.
Proof.
  induction l as [|a l IH]; intros s l0 H; cbn; [constructor|]. constructor.
  - specialize (H 0%nat). rewrite Nat.add_0_r in H. exact H.
  - apply IH. intro k. specialize (H (S k)). replace (s + S k)%nat with (S s + k)%nat in H by lia. exact H.
Qed.
Lemma compliant_spec t f m : table_ok t -> In (f_instr f) allowed_instructions -> compliant_lines t f = Val m ->
  decides m (t_len t) (fun k => row_passes t k f).
Proof.
  unfold compliant_lines. intros T I E. destruct (dget (f_key f) (t_cols t)) as [c|] eqn:D; [|discriminate].
  rewrite <- (T _ _ D). eapply decides_iff; [apply (comparator_spec _ _ _ _ I E)|]. intros k _. split.
  - intro M. exists c. auto.
  - intros (c' & D' & M). congruence.
Qed.
Theorem apply_spec fs t t' : table_ok t -> (forall f, In f fs -> In (f_instr f) allowed_instructions) -> apply fs t = Val t' ->
  exists idx, rows_kept t fs idx t'.
Proof.
  intros T A E. unfold apply in E. apply pbind_inv in E. destruct E as (ms & Ems & E). apply pmap_ok in Ems.
  destruct fs as [|f fs].
  - inversion Ems; subst. apply Val_inj in E. subst t'. exists (seq 0 (t_len t)). split; [apply seq_lt_sorted|]. split.
    + intro k. rewrite in_seq. split; [intros (_ & K); split; [exact K|intros f []]|intros (K & _); lia].
    + intro name. destruct (dget name (t_cols t)) as [c|] eqn:D; [|exact Logic.I]. rewrite <- (T _ _ D), <- cells_len.
      apply all_rows. intro k. reflexivity.
  - inversion Ems as [|? m ? ms1 E1 F1]; subst. apply Val_inj in E. subst t'.
    assert (D1 := compliant_spec t f m T (A f (or_introl eq_refl)) E1).
    assert (D : decides (cumulate m ms1) (t_len t) (fun k => row_passes t k f /\ forall g, In g fs -> row_passes t k g)).
    { apply (cumulate_spec (t_len t) fs ms1 (fun f k => row_passes t k f) m (fun k => row_passes t k f)); [|exact D1].
      assert (A' : forall g, In g fs -> In (f_instr g) allowed_instructions) by (intros g G; apply A; right; exact G).
      clear -F1 A' T. induction F1 as [|g m l ms E F IH]; constructor.
      - apply (compliant_spec t g m T); [apply A'; left; reflexivity|exact E].
      - apply IH. intros h H. apply A'. right. exact H. }
    destruct D as (Ld & Hd). exists (positions (cumulate m ms1) 0). split; [apply positions_sorted|]. split.
    + intro k. rewrite positions_in, Nat.sub_0_r. split.
      * intros (_ & N). assert (K : (k < t_len t)%nat) by (rewrite <- Ld; apply nth_error_Some; congruence). split; [exact K|].
        destruct (Hd k K) as (b & Nb & B). assert (b = true) by congruence. subst b. destruct (proj1 B eq_refl) as (B1 & B2).
        intros g [G|G]; [subst g; exact B1|apply B2, G].
      * intros (K & H). split; [lia|]. destruct (Hd k K) as (b & Nb & B). rewrite Nb. f_equal. apply B. split; [apply H; left; reflexivity|].
        intros g G. apply H. right. exact G.
    + intro name. unfold rows_of. cbn [t_cols]. rewrite dget_map. destruct (dget name (t_cols t)) as [c|] eqn:D; [|exact Logic.I]. cbn [option_map].
      rewrite cselect_cells. apply select_rows; [rewrite cells_len, Ld; apply (T _ _ D)|]. intro k. reflexivity.
Qed.

(** *** the table of an observation *)
Lemma add_others_spec obs n : forall ot cols cols', NoDup (dkeys ot) -> add_others obs n ot cols = Val cols' ->
  (forall name, dget name cols' = match dget name ot with
                                  | Some d => match dget obs d with Some c => Some c | None => dget name cols end
                                  | None => dget name cols
                                  end) /\
  forall name d c, dget name ot = Some d -> dget obs d = Some c -> clen c = n.
Proof.
  induction ot as [|(nm, d) ot IH]; intros cols cols' N E; cbn in E.
  - apply Val_inj in E. subst. split; [reflexivity|discriminate].
  - cbn in N. inversion N as [|? ? N1 N2]; subst. destruct (dget obs d) as [c|] eqn:D.
    + destruct (Nat.eqb_spec (clen c) n) as [L|]; [|discriminate]. destruct (IH _ _ N2 E) as (H1 & H2). split.
      * intro name. rewrite H1, dget_put. cbn [dget]. destruct (String.eqb_spec name nm) as [Q0|Q0]; [|reflexivity]. subst name. rewrite D.
        destruct (dget nm ot) as [d'|] eqn:D'; [|reflexivity]. exfalso. apply N1. apply dget_key. exists d'. exact D'.
      * intros name d' c'. cbn [dget]. destruct (String.eqb_spec name nm) as [Q0|Q0]; [|apply H2]. intros X Y. congruence.
    + destruct (IH _ _ N2 E) as (H1 & H2). split.
      * intro name. rewrite H1. cbn [dget]. destruct (String.eqb_spec name nm) as [Q0|Q0]; [|reflexivity]. subst name. rewrite D.
        destruct (dget nm ot) as [d'|] eqn:D'; [|reflexivity]. exfalso. apply N1. apply dget_key. exists d'. exact D'.
      * intros name d' c'. cbn [dget]. destruct (String.eqb_spec name nm) as [Q0|Q0]; [|apply H2]. intros X Y. congruence.
Qed.
(** the observation is in all the dictionaries *)
Definition present (r : reader) (obs : string) : Prop :=
  In obs (dkeys (waves r)) /\ In obs (dkeys (fluxes r)) /\ In obs (dkeys (errors r)) /\ forall n d, dget n (others r) = Some d -> In obs (dkeys d).
Lemma full_table_spec r obs t : NoDup (dkeys (others r)) -> present r obs -> full_table r obs = Val t ->
  table_ok t /\ (forall name, dget name (t_cols t) = given r obs name) /\ exists w, dget obs (waves r) = Some w /\ t_len t = List.length w.
Proof.
  intros N (Pw & Pf & Pe & Po) E. unfold full_table, nth_col in E.
  apply dget_key in Pw. destruct Pw as (w & W). apply dget_key in Pf. destruct Pf as (f & F). apply dget_key in Pe. destruct Pe as (e & G).
  rewrite W, F, G in E. destruct (Nat.eqb_spec (List.length f) (List.length w)) as [Lf|]; [|discriminate].
  destruct (Nat.eqb_spec (List.length e) (List.length w)) as [Le|]; [|discriminate]. cbn [andb] in E.
  apply pbind_inv in E. destruct E as (cols & Ec & E). apply Val_inj in E. subst t.
  destruct (add_others_spec _ _ _ _ _ N Ec) as (H1 & H2). cbn [t_cols t_len].
  assert (Q0 : forall name, dget name cols = given r obs name).
  { intro name. rewrite H1. unfold given. destruct (dget name (others r)) as [d|] eqn:D.
    - destruct (proj1 (dget_key obs d) (Po _ _ D)) as (c & C). rewrite C. reflexivity.
    - cbn [dget]. rewrite W, F, G. destruct (name =? "waves"); [reflexivity|]. destruct (name =? "fluxes"); [reflexivity|].
      destruct (name =? "errors"); reflexivity. }
  split; [|split; [exact Q0|exists w; auto]].
  intros name c D. cbn [t_cols t_len] in *. rewrite Q0 in D. unfold given in D. destruct (dget name (others r)) as [d|] eqn:Dn; [apply (H2 _ _ _ Dn D)|].
  rewrite W, F, G in D. destruct (name =? "waves"); [cbn in D; injection D as <-; reflexivity|].
  destruct (name =? "fluxes"); [cbn in D; injection D as <-; exact Lf|]. destruct (name =? "errors"); [cbn in D; injection D as <-; exact Le|discriminate].
Qed.
Lemma apply_given r obs t fs t' : NoDup (dkeys (others r)) -> present r obs -> full_table r obs = Val t ->
  (forall f, In f fs -> In (f_instr f) allowed_instructions) -> apply fs t = Val t' ->
  exists idx, kept r fs obs idx /\ forall name, match given r obs name, dget name (t_cols t') with
    | Some c, Some c' => Forall2 (at_row c) idx (cells c') | None, None => True | _, _ => False end.
Proof.
  intros N P Ef A Ea. destruct (full_table_spec _ _ _ N P Ef) as (T & Q0 & w & W & L). destruct (apply_spec _ _ _ T A Ea) as (idx & S1 & S2 & S3).
  exists idx. split.
  - split; [exact S1|]. exists w. split; [exact W|]. intro k. rewrite S2, L.
    assert (X : forall f, row_passes t k f <-> passes r obs k f).
    { intro f. unfold row_passes, passes. rewrite Q0. reflexivity. }
    split; intros (K & H); (split; [exact K|]); intros f I; apply X, H, I.
  - intro name. specialize (S3 name). rewrite Q0 in S3. exact S3.
Qed.
Lemma zip3_rows : forall idx a b c (P1 P2 P3 : nat -> cell -> Prop), Forall2 P1 idx a -> Forall2 P2 idx b -> Forall2 P3 idx c ->
  Forall2 (fun k (x : row) => P1 k (fst (fst x)) /\ P2 k (snd (fst x)) /\ P3 k (snd x)) idx (zip3 a b c).
Proof.
  induction idx as [|k idx IH]; intros a b c P1 P2 P3 A B C; inversion A; inversion B; inversion C; subst; cbn; constructor.
  - cbn. auto.
  - apply IH; assumption.
Qed.
Lemma rows_given r obs t fs t' : NoDup (dkeys (others r)) -> present r obs -> full_table r obs = Val t ->
  (forall f, In f fs -> In (f_instr f) allowed_instructions) -> apply fs t = Val t' -> kept_samples r fs obs (rows t').
Proof.
  intros N P Ef A Ea. destruct (apply_given _ _ _ _ _ N P Ef A Ea) as (idx & K & H). exists idx. split; [exact K|]. unfold rows, col.
  destruct (full_table_spec _ _ _ N P Ef) as (_ & Q0 & _). unfold full_table in Ef.
  assert (G : forall name, In name ["waves"; "fluxes"; "errors"] -> exists c, given r obs name = Some c).
  { intros name I. unfold given. destruct P as (Pw & Pf & Pe & Po). destruct (dget name (others r)) as [d|] eqn:D; [apply dget_key, (Po _ _ D)|].
    apply dget_key in Pw, Pf, Pe. destruct Pw as (w & ->), Pf as (f & ->), Pe as (e & ->). destruct I as [<-|[<-|[<-|[]]]]; cbn; eexists; reflexivity. }
  destruct (G "waves") as (cw & Gw); [cbn; auto|]. destruct (G "fluxes") as (cf & Gf); [cbn; auto|]. destruct (G "errors") as (ce & Ge); [cbn; auto|].
  pose proof (H "waves") as Hw. pose proof (H "fluxes") as Hf. pose proof (H "errors") as He. rewrite Gw in Hw. rewrite Gf in Hf. rewrite Ge in He.
  destruct (dget "waves" (t_cols t')) as [w|]; [|contradiction]. destruct (dget "fluxes" (t_cols t')) as [f|]; [|contradiction].
  destruct (dget "errors" (t_cols t')) as [e|]; [|contradiction].
  assert (Z := zip3_rows _ _ _ _ _ _ _ Hw Hf He). clear -Z Gw Gf Ge. induction Z as [|k x l l' X Z IH]; constructor; [|exact IH].
  destruct x as ((a, b), c). cbn in X. destruct X as (X1 & X2 & X3). cbn. repeat apply conj; eauto.
Qed.
