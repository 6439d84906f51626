From Coq Require Import String Ascii.
From Verif Require Import Base StoreModel StoreProofs CatalogModel CatalogSpec.
Open Scope string_scope.

Lemma catalog_cons k x m : catalog ((k, x) :: m) -> catalog m /\ ln_id x = k /\ ln_profile x <> None /\ forall u y, In (u, y) m -> (k < u)%Z.
Proof.
  intros [S V]. split; [|split; [|split]].
  - split; [intros i j a b Hij Ha Hb; apply (S (Datatypes.S i) (Datatypes.S j) a b); auto; lia|]. intros; apply V; right; assumption.
  - apply (V k x). left; reflexivity.
  - apply (V k x). left; reflexivity.
  - intros u y Hu. apply In_nth_error in Hu. destruct Hu as [n Hn]. apply (S 0%nat (Datatypes.S n) (k, x) (u, y)); auto. lia.
Qed.
Lemma catalog_intro k x m : catalog m -> ln_id x = k -> ln_profile x <> None -> (forall u y, In (u, y) m -> (k < u)%Z) -> catalog ((k, x) :: m).
Proof.
  intros [S V] I P L. split.
  - intros [|i] [|j] a b Hij Ha Hb; try lia.
    + simpl in Ha, Hb. injection Ha as <-. apply nth_error_In in Hb. destruct b as [u y]. simpl. eapply L; eauto.
    + simpl in Ha, Hb. apply (S i j a b); auto. lia.
  - intros u y [E|H]; [injection E as <- <-; auto|apply V; exact H].
Qed.
Lemma catalog_nil : catalog [].
Proof. split; [intros [|i] j a b _ Ha; discriminate|intros k x []]. Qed.
Lemma lfind_in m k x : catalog m -> (lfind m k = Some x <-> In (k, x) m).
Proof.
  induction m as [|[u v] m IH]; intro C; simpl; [split; [discriminate|tauto]|].
  destruct (catalog_cons _ _ _ C) as [C' [_ [_ L]]]. destruct (Z.eqb_spec u k) as [->|N].
  - split; [intro E; injection E as <-; left; reflexivity|]. intros [E|H]; [injection E as <-; reflexivity|]. specialize (L _ _ H). lia.
  - rewrite IH by exact C'. split; [auto|]. intros [E|H]; [injection E as E _; contradiction|exact H].
Qed.
Lemma lfind_lset m k v q : lfind (lset m k v) q = if (k =? q)%Z then Some v else lfind m q.
Proof.
  induction m as [|[u w] m IH]; simpl; [reflexivity|]. destruct (Z.eqb_spec u k) as [->|N]; simpl.
  - destruct (Z.eqb_spec k q); reflexivity.
  - destruct (Z.ltb_spec k u); simpl; [reflexivity|]. rewrite IH. destruct (Z.eqb_spec u q) as [->|]; [|reflexivity].
    destruct (Z.eqb_spec k q); [congruence|reflexivity].
Qed.
Lemma in_lset m k v u w : In (u, w) (lset m k v) -> (u, w) = (k, v) \/ In (u, w) m.
Proof.
  induction m as [|[a b] m IH]; simpl; [intros [H|[]]; left; auto|].
  destruct (Z.eqb_spec a k) as [->|N]; [simpl; intros [H|H]; auto|]. destruct (k <? a)%Z; simpl; [intros [H|[H|H]]; auto|].
  intros [H|H]; auto. destruct (IH H); auto.
Qed.
Lemma catalog_lset m x : catalog m -> ln_profile x <> None -> catalog (lset m (ln_id x) x).
Proof.
  induction m as [|[u w] m IH]; intros C P; simpl.
  - apply catalog_intro; auto. intros u y [].
  - destruct (catalog_cons _ _ _ C) as [C' [I [Pw L]]]. destruct (Z.eqb_spec u (ln_id x)) as [E|N].
    + apply catalog_intro; auto.
    + destruct (Z.ltb_spec (ln_id x) u) as [H|H].
      * apply catalog_intro; auto. intros a b [E|Hab]; [injection E as <- _; exact H|]. specialize (L _ _ Hab). lia.
      * apply catalog_intro; auto. intros a b Hab. apply in_lset in Hab. destruct Hab as [E|Hab]; [injection E as -> _; lia|]. eapply L; eauto.
Qed.
Lemma copy_ok x : ln_profile x <> None -> copy x = Ok x.
Proof. unfold copy. destruct (ln_profile x); congruence. Qed.

Lemma Add_spec m x : catalog m -> ln_profile x <> None ->
  exists m', Add m x = Ok m' /\ catalog m' /\ forall k, lfind m' k = if (ln_id x =? k)%Z then Some x else lfind m k.
Proof.
  intros C P. unfold Add. rewrite copy_ok by exact P. cbn [rbind]. eexists; split; [reflexivity|].
  split; [apply catalog_lset; auto|]. intro k. apply lfind_lset.
Qed.

(** ** filter *)
Lemma etype_eqb_spec a b : reflect (a = b) (etype_eqb a b).
Proof. destruct a, b; constructor; congruence. Qed.
Lemma eforce_eqb_spec a b : reflect (a = b) (eforce_eqb a b).
Proof. destruct a, b; constructor; congruence. Qed.
Lemma matches_spec t f x : ((etype_eqb t AllTypes || etype_eqb t (ln_type x)) && (eforce_eqb f AllForces || eforce_eqb f (ln_force x)))%bool = true
  <-> type_matches t x /\ force_matches f x.
Proof.
  unfold type_matches, force_matches. rewrite andb_true_iff, !orb_true_iff.
  destruct (etype_eqb_spec t AllTypes), (etype_eqb_spec t (ln_type x)), (eforce_eqb_spec f AllForces), (eforce_eqb_spec f (ln_force x));
    intuition congruence.
Qed.
Lemma filter_loop_spec t f : forall m acc, catalog m -> catalog acc ->
  exists out, filter_loop t f m acc = Ok out /\ catalog out /\
    forall k x, lfind out k = Some x <-> (lfind m k = Some x /\ type_matches t x /\ force_matches f x) \/
      (lfind acc k = Some x /\ ~ (exists y, lfind m k = Some y /\ type_matches t y /\ force_matches f y)).
Proof.
  induction m as [|[u v] m IH]; intros acc C A.
  - exists acc. split; [reflexivity|]. split; [exact A|]. intros k x. simpl. split; [intro H; right; split; [exact H|intros [y [E _]]; discriminate]|].
    intros [[E _]|[H _]]; [discriminate|exact H].
  - destruct (catalog_cons _ _ _ C) as [C' [I [P L]]]. cbn [filter_loop].
    assert (Nm : lfind m u = None).
    { destruct (lfind m u) as [w|] eqn:E; [|reflexivity]. apply lfind_in in E; [|exact C']. specialize (L _ _ E). lia. }
    pose proof (matches_spec t f v) as M.
    destruct ((etype_eqb t AllTypes || etype_eqb t (ln_type v)) && (eforce_eqb f AllForces || eforce_eqb f (ln_force v)))%bool.
    + rewrite copy_ok by exact P. cbn [rbind]. destruct (IH (lset acc u v) C') as [out [E [Co S]]].
      { rewrite <- I. apply catalog_lset; auto. }
      exists out. split; [exact E|]. split; [exact Co|]. intros k x. rewrite S, lfind_lset. cbn [lfind].
      destruct (Z.eqb_spec u k) as [<-|N].
      * rewrite Nm. split.
        { intros [[H _]|[H _]]; [discriminate|]. injection H as <-. left. split; [reflexivity|apply M; reflexivity]. }
        { intros [[H _]|[H H2]]; [|exfalso; apply H2; exists v; split; [reflexivity|apply M; reflexivity]].
          injection H as <-. right. split; [reflexivity|]. intros [y [H _]]. discriminate. }
      * reflexivity.
    + destruct (IH acc C' A) as [out [E [Co S]]]. exists out. split; [exact E|]. split; [exact Co|]. intros k x. rewrite S. cbn [lfind].
      destruct (Z.eqb_spec u k) as [<-|N]; [|reflexivity]. rewrite Nm. split.
      * intros [[H _]|[H _]]; [discriminate|]. right. split; [exact H|]. intros [y [H1 H2]]. injection H1 as <-. apply M in H2. discriminate.
      * intros [[H H2]|[H _]]; [injection H as <-; apply M in H2; discriminate|]. right. split; [exact H|]. intros [y [H1 _]]. discriminate.
Qed.
Lemma GetFilteredList_spec m t f : catalog m -> exists out, GetFilteredList m t f = Ok out /\ catalog out /\
  forall k x, lfind out k = Some x <-> lfind m k = Some x /\ type_matches t x /\ force_matches f x.
Proof.
  intro C. destruct (filter_loop_spec t f m [] C catalog_nil) as [out [E [Co S]]]. exists out. split; [exact E|]. split; [exact Co|].
  intros k x. rewrite S. simpl. split; [intros [H|[H _]]; [exact H|discriminate]|auto].
Qed.
Lemma catalog_ext m n : catalog m -> catalog n -> (forall k, lfind m k = lfind n k) -> m = n.
Proof.
  revert n. induction m as [|[u v] m IH]; intros [|[w x] n] C D H; [reflexivity| | |].
  - specialize (H w). simpl in H. rewrite Z.eqb_refl in H. discriminate.
  - specialize (H u). simpl in H. rewrite Z.eqb_refl in H. discriminate.
  - destruct (catalog_cons _ _ _ C) as [C' [I [P L]]]. destruct (catalog_cons _ _ _ D) as [D' [I2 [P2 L2]]].
    assert (u = w).
    { destruct (Z.lt_trichotomy u w) as [K|[K|K]]; [|exact K|].
      - pose proof (H u) as Hu. simpl in Hu. rewrite Z.eqb_refl in Hu. destruct (Z.eqb_spec w u); [lia|]. symmetry in Hu.
        apply lfind_in in Hu; [|exact D']. specialize (L2 _ _ Hu). lia.
      - pose proof (H w) as Hu. simpl in Hu. rewrite Z.eqb_refl in Hu. destruct (Z.eqb_spec u w); [lia|].
        apply lfind_in in Hu; [|exact C']. specialize (L _ _ Hu). lia. }
    clear I I2. subst w. assert (v = x) by (specialize (H u); simpl in H; rewrite Z.eqb_refl in H; congruence). subst x. f_equal. apply IH; auto.
    intro k. pose proof (H k) as Hk. simpl in Hk. destruct (Z.eqb_spec u k) as [E|N]; [|exact Hk]. subst k.
    assert (lfind m u = None). { destruct (lfind m u) eqn:E; [|reflexivity]. apply lfind_in in E; [|exact C']. specialize (L _ _ E). lia. }
    assert (lfind n u = None). { destruct (lfind n u) eqn:E; [|reflexivity]. apply lfind_in in E; [|exact D']. specialize (L2 _ _ E). lia. }
    congruence.
Qed.

(** ** strings *)
Lemma string2Type_spec s :
  (string2Type s = Ok AllTypes <-> s = "no") /\
  (string2Type s = Ok Emission <-> starts_with "E" s) /\
  (string2Type s = Ok Absorption <-> starts_with "A" s) /\
  (string2Type s = UB <-> s = "") /\
  (forall e, string2Type s = Throw e -> e = BAD_LINE_TYPE) .
Proof.
  unfold string2Type, starts_with. destruct (String.eqb_spec s "no") as [->|N].
  - repeat split; try discriminate; try (intros [r E]; discriminate); auto.
  - destruct s as [|c s].
    + repeat split; try discriminate; try congruence; try (intros [r E]; discriminate).
    + destruct (Ascii.eqb_spec c "E") as [->|NE]; [|destruct (Ascii.eqb_spec c "A") as [->|NA]];
        repeat split; try discriminate; try congruence; try (intros _; eexists; reflexivity); try (intros [r E]; congruence).
Qed.
Lemma string2Force_spec s :
  (string2Force s = Ok AllForces <-> s = "no") /\
  (string2Force s = Ok Weak <-> starts_with "W" s) /\
  (string2Force s = Ok Strong <-> starts_with "S" s) /\
  (string2Force s = UB <-> s = "") /\
  (forall e, string2Force s = Throw e -> e = BAD_LINE_FORCE).
Proof.
  unfold string2Force, starts_with. destruct (String.eqb_spec s "no") as [->|N].
  - repeat split; try discriminate; try (intros [r E]; discriminate); auto.
  - destruct s as [|c s].
    + repeat split; try discriminate; try congruence; try (intros [r E]; discriminate).
    + destruct (Ascii.eqb_spec c "W") as [->|NE]; [|destruct (Ascii.eqb_spec c "S") as [->|NA]];
        repeat split; try discriminate; try congruence; try (intros _; eexists; reflexivity); try (intros [r E]; congruence).
Qed.
Lemma GetFilteredListS_spec m t f : GetFilteredListS m t f =
  match string2Type t, string2Force f with
  | Ok t', Ok f' => GetFilteredList m t' f'
  | Ok _, Throw e => Throw e | Ok _, UB => UB | Throw e, _ => Throw e | UB, _ => UB
  end.
Proof. unfold GetFilteredListS. destruct (string2Type t); cbn [rbind]; auto; destruct (string2Force f); reflexivity. Qed.

(** ** groups *)
Definition in_group (n : string) (x : line) : bool := String.eqb (group_name x) n.
Lemma mset_nodup2 {V} (m : smap V) k v : NoDup (map fst m) -> NoDup (map fst (mset m k v)).
Proof. apply (@mset_nodup V). Qed.
Lemma group_loop_spec : forall m acc, catalog m -> NoDup (map fst acc) -> (forall n l, mfind acc n = Some l -> l <> []) ->
  exists g, group_loop m acc = Ok g /\ NoDup (map fst g) /\
    forall n, mfind g n = match ((match mfind acc n with Some l => l | None => [] end) ++ filter (in_group n) (lines m))%list with
                          | [] => None | l => Some l end.
Proof.
  induction m as [|[u v] m IH]; intros acc C Nd Ne.
  - exists acc. split; [reflexivity|]. split; [exact Nd|]. intro n. simpl. rewrite app_nil_r.
    destruct (mfind acc n) as [l|] eqn:E; [|reflexivity]. specialize (Ne _ _ E). destruct l; [contradiction|reflexivity].
  - destruct (catalog_cons _ _ _ C) as [C' [I [P L]]]. cbn [group_loop]. rewrite copy_ok by exact P. cbn [rbind].
    set (old := match mfind acc (group_name v) with Some w => w | None => [] end).
    destruct (IH (mset acc (group_name v) (old ++ [v])%list) C') as [g [E [Ng S]]].
    { apply mset_nodup2. exact Nd. }
    { intros n l H. rewrite mfind_mset in H. destruct (String.eqb_spec (group_name v) n); [|eapply Ne; eauto].
      injection H as <-. destruct old; discriminate. }
    exists g. split; [exact E|]. split; [exact Ng|]. intro n. rewrite S, mfind_mset. unfold lines. cbn [map snd filter].
    unfold in_group at 2. destruct (String.eqb_spec (group_name v) n) as [<-|N]; [|reflexivity].
    fold old. rewrite <- app_assoc. reflexivity.
Qed.
Lemma ConvertToGroupList_spec m : catalog m -> exists g, ConvertToGroupList m = Ok g /\ NoDup (map fst g) /\
  forall n, mfind g n = match filter (fun x => String.eqb (group_name x) n) (lines m) with [] => None | l => Some l end.
Proof.
  intro C. destruct (group_loop_spec m [] C) as [g [E [N S]]]; [constructor|intros n l H; discriminate|].
  exists g. split; [exact E|]. split; [exact N|]. intro n. rewrite S. reflexivity.
Qed.
Lemma group_name_cases x : (ln_group x <> undefStr -> group_name x = ln_group x) /\
  (ln_group x = undefStr -> group_name x = "single_" ++ ln_strid x).
Proof. unfold group_name. destruct (String.eqb_spec (ln_group x) undefStr); split; intros; congruence. Qed.
Lemma append_inj p a b : p ++ a = p ++ b -> a = b.
Proof. induction p as [|c p IH]; simpl; intro H; [exact H|]. injection H as H. auto. Qed.
Lemma nodup_lines m : catalog m -> NoDup (lines m).
Proof.
  induction m as [|[u v] m IH]; intro C; [constructor|]. destruct (catalog_cons _ _ _ C) as [C' [I [P L]]]. simpl. constructor; [|apply IH; exact C'].
  intro H. apply in_map_iff in H. destruct H as [[w y] [E H]]. simpl in E. subst y. pose proof (L _ _ H).
  destruct C' as [_ V]. destruct (V _ _ H). lia.
Qed.
Lemma filter_unique {A} (f : A -> bool) l x : NoDup l -> In x l -> f x = true -> (forall y, In y l -> f y = true -> y = x) -> filter f l = [x].
Proof.
  intros N Hx Fx U. assert (G : forall y, In y (filter f l) <-> y = x).
  { intro y. rewrite filter_In. split; [intros [H1 H2]; auto|intros ->; auto]. }
  assert (M : NoDup (filter f l)) by (apply NoDup_filter; exact N).
  destruct (filter f l) as [|a [|b t]] eqn:E.
  - exfalso. apply (G x). reflexivity.
  - f_equal. apply G. left. reflexivity.
  - exfalso. inversion M as [|? ? H1 H2]; subst. apply H1. left.
    assert (a = x) by (apply G; left; reflexivity). assert (b = x) by (apply G; right; left; reflexivity). congruence.
Qed.
Lemma ungrouped_alone m x g : catalog m -> In x (lines m) -> ln_group x = undefStr ->
  (forall y, In y (lines m) -> y <> x -> ln_group y = undefStr -> ln_strid y <> ln_strid x) ->
  (forall y, In y (lines m) -> ln_group y <> "single_" ++ ln_strid x) ->
  ConvertToGroupList m = Ok g -> mfind g ("single_" ++ ln_strid x) = Some [x].
Proof.
  intros C Hx U D1 D2 E. destruct (ConvertToGroupList_spec m C) as [g' [E' [N S]]]. rewrite E in E'. injection E' as <-.
  rewrite S. rewrite (filter_unique _ _ x); auto.
  - apply nodup_lines. exact C.
  - rewrite (proj2 (group_name_cases x) U). apply String.eqb_refl.
  - intros y Hy Fy. apply String.eqb_eq in Fy. destruct (group_name_cases y) as [G1 G2].
    destruct (String.eqb_spec (ln_group y) undefStr) as [Uy|Uy].
    + rewrite (G2 Uy) in Fy. apply append_inj in Fy. destruct (Z.eq_dec (ln_id y) (ln_id x)) as [I|I].
      * apply in_map_iff in Hx. destruct Hx as [[k x'] [Ex Hx]]. simpl in Ex. subst x'.
        apply in_map_iff in Hy. destruct Hy as [[k' y'] [Ey Hy]]. simpl in Ey. subst y'.
        pose proof (proj2 C _ _ Hx) as [Ix _]. pose proof (proj2 C _ _ Hy) as [Iy _].
        apply lfind_in in Hx; [|exact C]. apply lfind_in in Hy; [|exact C]. congruence.
      * exfalso. apply (D1 y Hy); auto. intro; subst; contradiction.
    + rewrite (G1 Uy) in Fy. exfalso. apply (D2 y Hy). exact Fy.
Qed.

(** ** updates *)
Lemma lfind_lupdate m id f k : lfind (lupdate m id f) k = if (k =? id)%Z then option_map f (lfind m k) else lfind m k.
Proof.
  induction m as [|[u v] m IH]; simpl; [destruct (k =? id)%Z; reflexivity|].
  destruct (Z.eqb_spec u id) as [->|N]; simpl.
  - destruct (Z.eqb_spec id k) as [->|N2]; [rewrite Z.eqb_refl; reflexivity|]. destruct (Z.eqb_spec k id); [congruence|reflexivity].
  - rewrite IH. destruct (Z.eqb_spec u k) as [->|]; [|reflexivity]. destruct (Z.eqb_spec k id); [contradiction|reflexivity].
Qed.
Lemma map_catalog m f : catalog m -> (forall x, ln_id (f x) = ln_id x /\ (ln_profile x <> None -> ln_profile (f x) <> None)) ->
  catalog (map (fun p => (fst p, f (snd p))) m).
Proof.
  intros C F. induction m as [|[u v] m IH]; [exact C|]. destruct (catalog_cons _ _ _ C) as [C' [I [P L]]]. simpl.
  apply catalog_intro; [apply IH; exact C'|rewrite (proj1 (F v)); exact I|apply F; exact P|].
  intros w y H. apply in_map_iff in H. destruct H as [[a b] [E H]]. injection E as <- <-. eapply L; eauto.
Qed.
Lemma lfind_map m f k : lfind (map (fun p => (fst p, f (snd p))) m) k = option_map f (lfind m k).
Proof. induction m as [|[u v] m IH]; simpl; [reflexivity|]. destruct (u =? k)%Z; [reflexivity|exact IH]. Qed.
Lemma lupdate_catalog m id f : catalog m -> (forall x, ln_id (f x) = ln_id x /\ (ln_profile x <> None -> ln_profile (f x) <> None)) ->
  catalog (lupdate m id f).
Proof.
  intros C F. induction m as [|[u v] m IH]; [exact C|]. destruct (catalog_cons _ _ _ C) as [C' [I [P L]]]. simpl.
  destruct (Z.eqb_spec u id) as [E|N].
  - apply catalog_intro; [exact C'|rewrite (proj1 (F v)); exact I|apply F; exact P|exact L].
  - apply catalog_intro; auto. intros w y H. assert (K : exists z, In (w, z) m).
    { clear - H. induction m as [|[a b] m IH]; simpl in *; [destruct H|]. destruct (a =? id)%Z.
      - destruct H as [H|H]; [injection H as <- _; exists b; left; reflexivity|exists y; right; exact H].
      - destruct H as [H|H]; [injection H as <- <-; exists b; left; reflexivity|]. destruct (IH H) as [z Hz]. exists z. right; exact Hz. }
    destruct K as [z Hz]. eapply L; eauto.
Qed.
Lemma setLineAmplitude_spec m id a : catalog m ->
  (lfind m id = None -> setLineAmplitude m id a = Throw INTERNAL_ERROR) /\
  (forall x, lfind m id = Some x -> exists m', setLineAmplitude m id a = Ok m' /\ catalog m' /\ lfind m' id = Some (with_amp x a) /\
     forall k, k <> id -> lfind m' k = lfind m k).
Proof.
  intro C. unfold setLineAmplitude. split; [intros ->; reflexivity|]. intros x E. rewrite E. eexists; split; [reflexivity|].
  split; [apply lupdate_catalog; [exact C|intro y; simpl; auto]|]. split.
  - rewrite lfind_lupdate, Z.eqb_refl, E. reflexivity.
  - intros k N. rewrite lfind_lupdate. destruct (Z.eqb_spec k id); [contradiction|reflexivity].
Qed.
Lemma convert_spec m : catalog m -> catalog (convertLineProfiles2SYMIGM m) /\
  forall k, lfind (convertLineProfiles2SYMIGM m) k =
    match lfind m k with
    | None => None
    | Some x => Some (if (etype_eqb (ln_type x) Emission && (String.eqb (ln_name x) "LyAE" || Qltb (ln_pos x) 1216))%bool
                      then with_profile x PSYMIGM else x)
    end.
Proof.
  intro C. unfold convertLineProfiles2SYMIGM. split.
  - apply (map_catalog m (fun x => if igm_absorbed x then with_profile x PSYMIGM else x)); [exact C|].
    intro x. destruct (igm_absorbed x); simpl; split; auto; discriminate.
  - intro k. rewrite (lfind_map m (fun x => if igm_absorbed x then with_profile x PSYMIGM else x)). destruct (lfind m k); reflexivity.
Qed.
Lemma ratio_spec m : catalog m -> catalog (ratio_lines m) /\ forall k, lfind (ratio_lines m) k = option_map (fun x => with_amp x 0%Q) (lfind m k).
Proof.
  intro C. split; [apply (map_catalog m (fun x => with_amp x 0%Q)); [exact C|intro x; simpl; auto]|]. intro k. apply (lfind_map m (fun x => with_amp x 0%Q)).
Qed.
Lemma setAsym_spec m name asym q : catalog m -> profile_with_params name asym = Ok q ->
  exists m', setAsymProfileAndParams m name asym = Ok m' /\ catalog m' /\
    forall k, lfind m' k = match lfind m k with
                           | Some x => Some (match ln_profile x with Some (PASYM _ _) | Some (PASYMFIT _ _) => with_profile x q | _ => x end)
                           | None => None end.
Proof.
  intros C Q. set (f := fun x => match ln_profile x with Some (PASYM _ _) | Some (PASYMFIT _ _) => with_profile x q | _ => x end).
  assert (E : setAsymProfileAndParams m name asym = Ok (map (fun p => (fst p, f (snd p))) m)).
  { induction m as [|[u v] m IH]; [reflexivity|]. destruct (catalog_cons _ _ _ C) as [C' [I [P L]]]. cbn [setAsymProfileAndParams].
    destruct (ln_profile v) as [p|] eqn:Pv; [|contradiction]. rewrite (IH C'). cbn [map fst snd]. replace (f v) with (match p with PASYM _ _ | PASYMFIT _ _ => with_profile v q | _ => v end) by (unfold f; rewrite Pv; reflexivity).
    destruct p; cbn [isAsymFit isAsymFixed orb rbind]; rewrite ?Q; reflexivity. }
  rewrite E. eexists; split; [reflexivity|]. split.
  - apply map_catalog; [exact C|]. intro x. unfold f. destruct (ln_profile x) as [[]|] eqn:Px; simpl; rewrite ?Px; split; auto; discriminate.
  - intro k. rewrite lfind_map. destruct (lfind m k); reflexivity.
Qed.
Lemma make_profile_spec name asym :
  make_profile name asym =
    if has_ASYMFIXED name then Ok (PASYM asym "mean")
    else if String.eqb name "SYM" then Ok PSYM else if String.eqb name "LOR" then Ok PLOR
    else if String.eqb name "ASYM" then Ok (PASYM (1, 9 # 2, 0)%Q "none")
    else if String.eqb name "ASYMFIT" then Ok (PASYMFIT (2, 2, 0)%Q "mean")
    else if String.eqb name "SYMIGM" then Ok PSYMIGM else Throw INTERNAL_ERROR.
Proof. reflexivity. Qed.
Lemma AddLineFromParams_spec m name pos type force prof asym group amp id strid : catalog m ->
  match string2Type type, string2Force force, make_profile prof asym with
  | Ok t, Ok f, Ok p => exists m', AddLineFromParams m name pos type force prof asym group amp id strid = Ok m' /\ catalog m' /\
      forall k, lfind m' k = if (id =? k)%Z then Some (mkLine id strid name t f group pos amp (Some p)) else lfind m k
  | Ok _, Ok _, Throw e => AddLineFromParams m name pos type force prof asym group amp id strid = Throw e
  | Ok _, Throw e, _ => AddLineFromParams m name pos type force prof asym group amp id strid = Throw e
  | Throw e, _, _ => AddLineFromParams m name pos type force prof asym group amp id strid = Throw e
  | _, _, _ => AddLineFromParams m name pos type force prof asym group amp id strid = UB
  end.
Proof.
  intro C. unfold AddLineFromParams. destruct (string2Type type) as [t|e|]; cbn [rbind]; auto.
  destruct (string2Force force) as [f|e|]; cbn [rbind]; auto. destruct (make_profile prof asym) as [p|e|]; cbn [rbind]; auto.
  exact (Add_spec m (mkLine id strid name t f group pos amp (Some p)) C ltac:(simpl; discriminate)).
Qed.
(** velocities *)
Lemma velocity_spec v name x : (mfind v name <> None -> addVelocity v name x = Throw INTERNAL_ERROR) /\
  (mfind v name = None -> exists v', addVelocity v name x = Ok v' /\ getVelocity v' name = Ok x /\
     forall n, n <> name -> getVelocity v' n = getVelocity v n).
Proof.
  unfold addVelocity, getVelocity. destruct (mfind v name) eqn:E; (split; [intro H; try reflexivity; try contradiction|intro H; try discriminate]).
  eexists; split; [reflexivity|]. rewrite mfind_mset, String.eqb_refl. split; [reflexivity|]. intros n N. rewrite mfind_mset.
  destruct (String.eqb_spec name n); [congruence|reflexivity].
Qed.

(** ** detected lines *)
Definition dkeys (m : dmap) : Prop := forall i p, nth_error m i = Some p -> fst p = Z.of_nat i.
Lemma dset_end : forall m i d, (forall j p, nth_error m j = Some p -> fst p = (i + Z.of_nat j)%Z) ->
  dset m (i + Z.of_nat (length m)) d = (m ++ [((i + Z.of_nat (length m))%Z, d)])%list.
Proof.
  induction m as [|[u w] m IH]; intros i d H; cbn [dset app length]; [reflexivity|].
  pose proof (H 0%nat (u, w) eq_refl) as H0. cbn [fst] in H0. subst u.
  destruct (Z.eqb_spec (i + Z.of_nat 0) (i + Z.of_nat (S (length m)))); [lia|]. destruct (Z.ltb_spec (i + Z.of_nat (S (length m))) (i + Z.of_nat 0)); [lia|].
  f_equal. specialize (IH (i + 1)%Z d). replace (i + 1 + Z.of_nat (length m))%Z with (i + Z.of_nat (S (length m)))%Z in IH by lia.
  apply IH. intros j p Hj. rewrite (H (S j) p Hj). lia.
Qed.
Lemma det_Add_spec m d : dkeys m -> det_Add m d = (m ++ [(Z.of_nat (length m), d)])%list /\ dkeys (det_Add m d).
Proof.
  intro K. assert (E : det_Add m d = (m ++ [(Z.of_nat (length m), d)])%list) by (apply (dset_end m 0 d); exact K).
  split; [exact E|]. rewrite E. intros i p Hi. destruct (Nat.lt_ge_cases i (length m)) as [L|L].
  - rewrite nth_error_app1 in Hi by exact L. apply K. exact Hi.
  - rewrite nth_error_app2 in Hi by exact L. destruct (i - length m)%nat as [|n] eqn:D; [|destruct n; discriminate].
    simpl in Hi. injection Hi as <-. simpl. f_equal. lia.
Qed.
Lemma number_nth : forall l i k p, nth_error (number i l) k = Some p -> fst p = (i + Z.of_nat k)%Z /\ nth_error l k = Some (snd p).
Proof.
  induction l as [|x t IH]; intros i k p H; [destruct k; discriminate|]. destruct k as [|k]; simpl in H.
  - injection H as <-. simpl. split; [lia|reflexivity].
  - destruct (IH _ _ _ H) as [A B]. split; [lia|exact B].
Qed.
Lemma number_snd : forall l i, map snd (number i l) = l.
Proof. induction l as [|x t IH]; intro i; simpl; [reflexivity|rewrite IH; reflexivity]. Qed.
Lemma det_lt_before a b : det_lt b a = false -> before a b.
Proof.
  unfold det_lt, before. destruct (Qeq_bool_spec (d_pos b) (d_pos a)); destruct (Qltb_spec (d_amp b) (d_amp a)), (Qltb_spec (d_pos b) (d_pos a)); intro H; try discriminate.
  - right. split; [symmetry; assumption|lra].
  - right. split; [symmetry; assumption|lra].
  - left. lra.
  - left. lra.
Qed.
Lemma det_Sort_spec sort m : sorts sort ->
  dkeys (det_Sort sort m) /\ Permutation (map snd (det_Sort sort m)) (map snd m) /\
  forall i j a b, (i < j)%nat -> nth_error (map snd (det_Sort sort m)) i = Some a -> nth_error (map snd (det_Sort sort m)) j = Some b -> before a b.
Proof.
  intro S. unfold det_Sort. split; [intros i p H; apply number_nth in H; destruct H as [H _]; rewrite H; lia|].
  rewrite number_snd. destruct (S (map snd m)) as [P O]. split; [exact P|]. intros i j a b Hij Ha Hb. apply det_lt_before. eapply O; eauto.
Qed.

Lemma has_contains s : has_ASYMFIXED s = true <-> contains "ASYMFIXED" s.
Proof.
  unfold has_ASYMFIXED, contains. destruct (String.index 0 "ASYMFIXED" s) as [n|] eqn:E; split; intro H; try discriminate; try reflexivity.
  - exists n. apply (index_correct1 0 n "ASYMFIXED" s E).
  - destruct H as [n Hn]. exfalso. apply (index_correct3 0 n "ASYMFIXED" s E); [discriminate|lia|exact Hn].
Qed.
Lemma profile_names_spec name asym :
  (contains "ASYMFIXED" name -> make_profile name asym = Ok (PASYM asym "mean") /\ profile_with_params name asym = Ok (PASYM asym "mean")) /\
  (make_profile "SYM" asym = Ok PSYM /\ profile_with_params "SYM" asym = Ok PSYM) /\
  (make_profile "LOR" asym = Ok PLOR /\ profile_with_params "LOR" asym = Ok PLOR) /\
  (make_profile "SYMIGM" asym = Ok PSYMIGM /\ profile_with_params "SYMIGM" asym = Ok PSYMIGM) /\
  (make_profile "ASYM" asym = Ok (PASYM (1, 9 # 2, 0)%Q "none") /\ profile_with_params "ASYM" asym = Ok (PASYM asym "none")) /\
  (make_profile "ASYMFIT" asym = Ok (PASYMFIT (2, 2, 0)%Q "mean") /\ profile_with_params "ASYMFIT" asym = Ok (PASYMFIT asym "mean")) /\
  (~ contains "ASYMFIXED" name -> ~ In name ["SYM"; "LOR"; "SYMIGM"; "ASYM"; "ASYMFIT"] ->
     make_profile name asym = Throw INTERNAL_ERROR /\ profile_with_params name asym = Throw INTERNAL_ERROR).
Proof.
  split; [|do 5 (split; [split; reflexivity|])].
  - intro C. apply has_contains in C. unfold make_profile, profile_with_params. rewrite C. split; reflexivity.
  - intros C N. assert (H : has_ASYMFIXED name = false) by (destruct (has_ASYMFIXED name) eqn:E; [exfalso; apply C, has_contains, E|reflexivity]).
    unfold make_profile, profile_with_params. rewrite H. simpl in N.
    repeat match goal with |- context [String.eqb name ?w] => destruct (String.eqb_spec name w) as [->|]; [exfalso; apply N; tauto|] end.
    split; reflexivity.
Qed.
