From Coq Require Import String Ascii.
From Verif Require Import Base ScopeModel ScopeSpec ScopeProofs StoreModel StoreSpec.
Open Scope string_scope.

Section Map.
  Context {V : Type}.
  Lemma mfind_mset (m : smap V) k v q : mfind (mset m k v) q = if String.eqb k q then Some v else mfind m q.
  Proof.
    induction m as [|[u w] m IH]; simpl.
    - reflexivity.
    - destruct (String.eqb_spec u k) as [->|E]; simpl.
      + destruct (String.eqb_spec k q); reflexivity.
      + destruct (String.eqb_spec u q) as [->|E2]; simpl.
        * destruct (String.eqb_spec k q); [congruence|reflexivity].
        * exact IH.
  Qed.
End Map.

Section Results.
  Context {R : Type}.
  Implicit Types (ops : list (store_op R)) (s : result_store R).

  Lemma after_reset_snoc ops o : after_reset (ops ++ [o]) = if is_sreset o then [] else (after_reset ops ++ [o])%list.
  Proof.
    induction ops as [|x t IH]; [destruct o; reflexivity|].
    change ((x :: t) ++ [o])%list with (x :: (t ++ [o]))%list. cbn [after_reset].
    change (x :: t ++ [o])%list with ((x :: t) ++ [o])%list. rewrite existsb_app. cbn [existsb]. rewrite orb_false_r.
    destruct (is_sreset o) eqn:E; [rewrite orb_true_r; exact IH|]. rewrite orb_false_r.
    destruct (is_sreset x || existsb is_sreset t)%bool; [exact IH|reflexivity].
  Qed.
  Lemma first_global_app a b key : first_global (a ++ b) key =
    match first_global a key with Some r => Some r | None => @first_global R b key end.
  Proof. induction a as [|[p n r|u p n r|] a IH]; simpl; auto. destruct (String.eqb _ _); auto. Qed.
  Lemma first_template_app a b t key : first_template (a ++ b) t key =
    match first_template a t key with Some r => Some r | None => @first_template R b t key end.
  Proof. induction a as [|[p n r|u p n r|] a IH]; simpl; auto. destruct (_ && _)%bool; auto. Qed.

  Lemma global_step s p n r key :
    mfind (rs_global (fst (StoreGlobalResult s p n r))) key =
      match mfind (rs_global s) key with Some x => Some x
      | None => if String.eqb (full_name p n) key then Some r else None end
    /\ rs_tpl (fst (StoreGlobalResult s p n r)) = rs_tpl s.
  Proof.
    unfold StoreGlobalResult, StoreResult. destruct (mfind (rs_global s) (full_name p n)) eqn:E; simpl.
    - split; auto. destruct (mfind (rs_global s) key) eqn:F; auto. destruct (String.eqb_spec (full_name p n) key); congruence.
    - split; auto. rewrite mfind_mset. destruct (String.eqb_spec (full_name p n) key) as [<-|]; [rewrite E|destruct (mfind _ key)]; reflexivity.
  Qed.
  Definition tpl_find s t key : option R := match mfind (rs_tpl s) t with Some m => mfind m key | None => None end.
  Lemma template_step s u p n r t key :
    tpl_find (fst (StorePerTemplateResult s u p n r)) t key =
      match tpl_find s t key with Some x => Some x
      | None => if (String.eqb u t && String.eqb (full_name p n) key)%bool then Some r else None end
    /\ rs_global (fst (StorePerTemplateResult s u p n r)) = rs_global s.
  Proof.
    unfold StorePerTemplateResult, tpl_find.
    set (tm := match mfind (rs_tpl s) u with Some _ => rs_tpl s | None => mset (rs_tpl s) u [] end).
    assert (Hu : mfind tm u = Some (match mfind (rs_tpl s) u with Some m => m | None => [] end)).
    { unfold tm. destruct (mfind (rs_tpl s) u) eqn:E; [exact E|]. rewrite mfind_mset, String.eqb_refl. reflexivity. }
    assert (Ho : forall q, q <> u -> mfind tm q = mfind (rs_tpl s) q).
    { intros q Hq. unfold tm. destruct (mfind (rs_tpl s) u); [reflexivity|]. rewrite mfind_mset.
      destruct (String.eqb_spec u q); [congruence|reflexivity]. }
    rewrite Hu. unfold StoreResult. set (m := match mfind (rs_tpl s) u with Some m => m | None => [] end).
    destruct (mfind m (full_name p n)) eqn:E; simpl; (split; [|reflexivity]); rewrite mfind_mset;
      destruct (String.eqb_spec u t) as [<-|Hne]; simpl.
    - assert (Em : match mfind (rs_tpl s) u with Some m0 => mfind m0 key | None => None end = mfind m key)
        by (unfold m; destruct (mfind (rs_tpl s) u); reflexivity). rewrite Em.
      destruct (mfind m key) eqn:F; auto. destruct (String.eqb_spec (full_name p n) key); congruence.
    - rewrite Ho by congruence. destruct (mfind (rs_tpl s) t) as [m0|]; [destruct (mfind m0 key)|]; reflexivity.
    - assert (Em : match mfind (rs_tpl s) u with Some m0 => mfind m0 key | None => None end = mfind m key)
        by (unfold m; destruct (mfind (rs_tpl s) u); reflexivity). rewrite Em.
      rewrite mfind_mset. destruct (String.eqb_spec (full_name p n) key) as [<-|]; [rewrite E|destruct (mfind m key)]; reflexivity.
    - rewrite Ho by congruence. destruct (mfind (rs_tpl s) t) as [m0|]; [destruct (mfind m0 key)|]; reflexivity.
  Qed.

  Lemma store_run_snoc ops o : store_run (ops ++ [o]) = fst (store_step (store_run ops) o).
  Proof. unfold store_run. rewrite fold_left_app. reflexivity. Qed.

  Lemma history_find ops :
    (forall key, mfind (rs_global (store_run ops)) key = first_global (after_reset ops) key) /\
    (forall t key, tpl_find (store_run ops) t key = first_template (after_reset ops) t key).
  Proof.
    induction ops as [|o ops [I1 I2]] using rev_ind; [split; reflexivity|].
    rewrite store_run_snoc, after_reset_snoc. destruct o as [p n r|u p n r|]; simpl is_sreset; cbv iota; cbn [store_step].
    - split.
      + intro key. rewrite (proj1 (global_step _ p n r key)), I1, first_global_app. simpl.
        destruct (first_global (after_reset ops) key); auto.
      + intros t key. unfold tpl_find. rewrite (proj2 (global_step _ p n r "")). rewrite first_template_app. simpl.
        specialize (I2 t key). unfold tpl_find in I2. rewrite I2. destruct (first_template (after_reset ops) t key); reflexivity.
    - split.
      + intro key. rewrite (proj2 (template_step _ u p n r "" "")), I1, first_global_app. simpl.
        destruct (first_global (after_reset ops) key); auto.
      + intros t key. rewrite (proj1 (template_step _ u p n r t key)), I2, first_template_app. simpl.
        destruct (first_template (after_reset ops) t key); auto.
    - split; reflexivity.
  Qed.

  Theorem store_history ops :
    (forall key, GetGlobalResult (store_run ops) key =
       match first_global (after_reset ops) key with Some r => Ok r | None => Throw UNKNOWN_ATTRIBUTE end) /\
    (forall t key, GetPerTemplateResult (store_run ops) t key =
       match first_template (after_reset ops) t key with Some r => Ok r | None => Throw INTERNAL_ERROR end).
  Proof.
    destruct (history_find ops) as [H1 H2]. split.
    - intro key. unfold GetGlobalResult. rewrite H1. destruct (first_global _ _); reflexivity.
    - intros t key. unfold GetPerTemplateResult. specialize (H2 t key). unfold tpl_find in H2.
      destruct (mfind (rs_tpl (store_run ops)) t) as [m|]; rewrite <- H2; [destruct (mfind m key)|]; reflexivity.
  Qed.
  (** a store is rejected exactly when the key is taken; lookups are then unchanged *)
  Theorem store_outcome ops p n (r : R) :
    snd (StoreGlobalResult (store_run ops) p n r) =
      match first_global (after_reset ops) (full_name p n) with None => Ok tt | Some _ => Throw INTERNAL_ERROR end.
  Proof.
    unfold StoreGlobalResult, StoreResult. rewrite (proj1 (history_find ops)).
    destruct (first_global (after_reset ops) (full_name p n)); reflexivity.
  Qed.
  Theorem store_tpl_outcome ops t p n (r : R) :
    snd (StorePerTemplateResult (store_run ops) t p n r) =
      match first_template (after_reset ops) t (full_name p n) with None => Ok tt | Some _ => Throw INTERNAL_ERROR end.
  Proof.
    unfold StorePerTemplateResult, StoreResult. pose proof (proj2 (history_find ops) t (full_name p n)) as H. unfold tpl_find in H.
    destruct (mfind (rs_tpl (store_run ops)) t) as [m|] eqn:E.
    - rewrite E. rewrite <- H. destruct (mfind m (full_name p n)); reflexivity.
    - rewrite mfind_mset, String.eqb_refl. rewrite <- H. reflexivity.
  Qed.

  (** the map of all the templates *)
  Lemma mset_keys {V} (m : smap V) k v : map fst (mset m k v) = map fst m \/ (mfind m k = None /\ map fst (mset m k v) = (map fst m ++ [k])%list).
  Proof.
    induction m as [|[u w] m IH]; simpl; [right; auto|]. destruct (String.eqb_spec u k) as [->|N]; [left; reflexivity|].
    destruct IH as [IH|[IH1 IH2]]; [left; simpl; rewrite IH; reflexivity|right]. split; [exact IH1|]. simpl. rewrite IH2. reflexivity.
  Qed.
  Lemma mfind_None_keys {V} (m : smap V) k : mfind m k = None -> ~ In k (map fst m).
  Proof.
    induction m as [|[u w] m IH]; simpl; [tauto|]. destruct (String.eqb_spec u k) as [->|N]; [discriminate|]. intros H [K|K]; [congruence|]. apply IH; auto.
  Qed.
  Lemma mset_nodup {V} (m : smap V) k v : NoDup (map fst m) -> NoDup (map fst (mset m k v)).
  Proof.
    intro H. destruct (mset_keys m k v) as [->|[E ->]]; [exact H|]. apply mfind_None_keys in E.
    rewrite NoDup_nth_error in H |- *. clear v. revert H E. generalize (map fst m). intros l H E.
    assert (G : NoDup (l ++ [k])%list).
    { apply NoDup_Add with (a := k) (l := l); [|split; [apply NoDup_nth_error; exact H|exact E]].
      pose proof (Add_app k l []) as A. rewrite app_nil_r in A. exact A. }
    apply NoDup_nth_error. exact G.
  Qed.
  Lemma tpl_nodup ops : NoDup (map fst (rs_tpl (store_run ops))).
  Proof.
    induction ops as [|o ops IH] using rev_ind; [constructor|]. rewrite store_run_snoc. destruct o as [p n r|u p n r|]; cbn [store_step].
    - rewrite (proj2 (global_step _ p n r "")). exact IH.
    - unfold StorePerTemplateResult. set (tm := match mfind (rs_tpl (store_run ops)) u with Some _ => _ | None => _ end).
      assert (Nt : NoDup (map fst tm)) by (unfold tm; destruct (mfind _ u); [exact IH|apply mset_nodup; exact IH]).
      destruct (mfind tm u) as [m|]; [|exact IH]. destruct (StoreResult m p n r) as [m' o]. simpl. apply mset_nodup. exact Nt.
    - constructor.
  Qed.
  Lemma mfind_flat_map name : forall l t, NoDup (map fst l) ->
    mfind (flat_map (fun p => match @mfind R (snd p) name with Some r => [(fst p, r)] | None => [] end) l) t =
    match mfind l t with Some m => mfind m name | None => None end.
  Proof.
    induction l as [|[u m] l IH]; intros t H; [reflexivity|]. inversion H as [|? ? H1 H2]; subst. cbn [flat_map mfind fst snd].
    destruct (String.eqb_spec u t) as [->|N].
    - destruct (mfind m name) as [r|]; simpl; [rewrite String.eqb_refl; reflexivity|]. rewrite IH by exact H2.
      destruct (mfind l t) as [m'|] eqn:F; [exfalso|reflexivity]. apply H1. clear - F.
      induction l as [|[a b] l IHl]; simpl in *; [discriminate|]. destruct (String.eqb_spec a t) as [->|]; [left; reflexivity|right; auto].
    - destruct (mfind m name) as [r|]; simpl; [destruct (String.eqb_spec u t); [contradiction|]|]; apply IH; exact H2.
  Qed.
  Lemma flat_map_keys name : forall l : smap (smap R), NoDup (map fst l) ->
    NoDup (map fst (flat_map (fun p => match @mfind R (snd p) name with Some r => [(fst p, r)] | None => [] end) l)).
  Proof.
    assert (G : forall l : smap (smap R), forall t, In t (map fst (flat_map (fun p => match @mfind R (snd p) name with Some r => [(fst p, r)] | None => [] end) l)) -> In t (map fst l)).
    { induction l as [|[u m] l IH]; intros t H; [destruct H|]. cbn [flat_map fst snd] in H. destruct (mfind m name); simpl in *; [destruct H as [H|H]; auto|auto]. }
    induction l as [|[u m] l IH]; intro H; [constructor|]. inversion H as [|? ? H1 H2]; subst. cbn [flat_map fst snd].
    destruct (mfind m name); simpl; [constructor; [intro K; apply H1, G, K|]|]; apply IH; exact H2.
  Qed.
  Theorem template_map ops name :
    NoDup (map fst (GetPerTemplateResultMap (store_run ops) name)) /\
    forall t, mfind (GetPerTemplateResultMap (store_run ops) name) t = first_template (after_reset ops) t name.
  Proof.
    unfold GetPerTemplateResultMap. split; [apply flat_map_keys, tpl_nodup|]. intro t.
    rewrite mfind_flat_map by apply tpl_nodup. exact (proj2 (history_find ops) t name).
  Qed.

  (** scoped store then 4-part retrieval *)
  Lemma full_name_scoped sc n : full_name (GetCurrentScopeName sc) n = GetScopedName sc n.
  Proof. reflexivity. Qed.
  Lemma buildFullname_dotted sm st me n :
    buildFullname sm st me n = dotted (filter (fun x => negb (String.eqb x "")) [sm; st; me] ++ [n]).
  Proof.
    unfold buildFullname. destruct (String.eqb_spec sm ""), (String.eqb_spec st ""), (String.eqb_spec me ""); subst;
    cbn [filter String.eqb negb]; repeat match goal with |- context[String.eqb ?a ?b] => destruct (String.eqb_spec a b); try contradiction end;
      cbn [negb app dotted]; rewrite ?append_assoc_s; reflexivity.
  Qed.
  Theorem buildFullname_scope sc sm st me n : sc_names sc = [sm; st; me] -> sm <> "" -> st <> "" -> me <> "" ->
    buildFullname sm st me n = GetScopedName sc n.
  Proof.
    intros E H1 H2 H3. rewrite scoped_name by (rewrite E; repeat constructor; auto). rewrite buildFullname_dotted, E.
    cbn [filter]. destruct (String.eqb_spec sm ""), (String.eqb_spec st ""), (String.eqb_spec me ""); try contradiction. reflexivity.
  Qed.
  Theorem store_then_retrieve ops sc sm st me n (r : R) : sc_names sc = [sm; st; me] -> sm <> "" -> st <> "" -> me <> "" ->
    first_global (after_reset ops) (dotted [sm; st; me; n]) = None ->
    exists s', StoreScopedGlobalResult sc (store_run ops) n r = (s', Ok tt) /\
      GetGlobalResult4 s' sm st me n = Ok r /\ GetScopedGlobalResult sc s' n = Ok r /\ HasDataset s' sm st me n = true /\
      forall key, key <> dotted [sm; st; me; n] -> GetGlobalResult s' key = GetGlobalResult (store_run ops) key.
  Proof.
    intros E H1 H2 H3 Hf. pose proof (buildFullname_scope sc sm st me n E H1 H2 H3) as B.
    assert (D : GetScopedName sc n = dotted [sm; st; me; n]) by (rewrite scoped_name by (rewrite E; repeat constructor; auto); rewrite E; reflexivity).
    unfold StoreScopedGlobalResult. pose proof (store_outcome ops (GetCurrentScopeName sc) n r) as O.
    rewrite full_name_scoped, D, Hf in O.
    destruct (StoreGlobalResult (store_run ops) (GetCurrentScopeName sc) n r) as [s' o] eqn:ES. simpl in O. subst o.
    assert (G : forall key, mfind (rs_global s') key =
      match mfind (rs_global (store_run ops)) key with Some x => Some x | None => if String.eqb (dotted [sm; st; me; n]) key then Some r else None end).
    { intro key. pose proof (proj1 (global_step (store_run ops) (GetCurrentScopeName sc) n r key)) as G. rewrite ES in G. simpl fst in G.
      rewrite full_name_scoped, D in G. exact G. }
    assert (G1 : mfind (rs_global s') (dotted [sm; st; me; n]) = Some r).
    { rewrite G, (proj1 (history_find ops)), Hf, String.eqb_refl. reflexivity. }
    exists s'. split; [reflexivity|]. unfold GetGlobalResult4, GetScopedGlobalResult, GetGlobalResult, HasDataset. rewrite B, D, G1.
    repeat split; auto. intros key Hk. rewrite G. destruct (mfind (rs_global (store_run ops)) key); auto.
    destruct (String.eqb_spec (dotted [sm; st; me; n]) key); [congruence|reflexivity].
  Qed.
End Results.

(** ** parameters *)
Lemma split_dot_eq s : split_dot s = split_dots s. Proof. induction s; simpl; [reflexivity|]. rewrite IHs. reflexivity. Qed.
Lemma path_of_dotted l : l <> [] -> Forall no_dot l -> last l "" <> "" -> path_of (dotted l) = l.
Proof.
  intros H1 H2 H3. unfold path_of. rewrite split_dot_eq, split_dotted by auto.
  destruct (String.eqb_spec (last l "") ""); [contradiction|reflexivity].
Qed.
Lemma path_of_scoped sc x : Forall plain (sc_names sc) -> plain x -> path_of (GetScopedName sc x) = (sc_names sc ++ [x])%list.
Proof.
  intros H [Hx1 Hx2]. rewrite scoped_name by (eapply Forall_impl; [|exact H]; intros a [A _]; exact A).
  apply path_of_dotted.
  - destruct (sc_names sc); discriminate.
  - apply Forall_app. split; [eapply Forall_impl; [|exact H]; intros a [_ A]; exact A|constructor; auto].
  - rewrite last_last. exact Hx1.
Qed.
Lemma value_Get {T} (conv : string -> option T) t name p : path_of name = p ->
  Get conv t name = match value_at t p with
                    | Some s => match conv s with Some x => Ok x | None => Throw MISSING_PARAMETER end
                    | None => Throw MISSING_PARAMETER end.
Proof. intros <-. unfold Get, get_optional, value_at, get_child_optional. destruct (pwalk t _); reflexivity. Qed.
Lemma value_Has {T} (conv : string -> option T) t name p : path_of name = p ->
  Has conv t name = match value_at t p with Some _ => true | None => false end.
Proof.
  intros <-. unfold Has, get_optional, value_at, get_child_optional. destruct (pwalk t _) as [c|]; [|reflexivity].
  destruct (conv (pdata c)); reflexivity.
Qed.

Theorem GetScoped_spec {T} (conv : string -> option T) sc t x : Forall plain (sc_names sc) -> plain x ->
  GetScoped conv sc t x = match value_at t (sc_names sc ++ [x])%list with
                    | Some s => match conv s with Some v => Ok v | None => Throw MISSING_PARAMETER end
                    | None => Throw MISSING_PARAMETER end.
Proof.
  intros H Hx. unfold GetScoped. pose proof (path_of_scoped sc x H Hx) as P.
  rewrite (value_Has conv t _ _ P), (value_Get conv t _ _ P).
  destruct (value_at t (sc_names sc ++ [x])%list); reflexivity.
Qed.
Theorem GetListScoped_spec {T} (conv : string -> option T) sc t x : Forall plain (sc_names sc) -> plain x ->
  GetListScoped conv sc t x =
    match pwalk t (sc_names sc ++ [x])%list with
    | Some c => list_items conv (pchildren c)
    | None => match pwalk t [x] with Some c => list_items conv (pchildren c) | None => Throw MISSING_PARAMETER end
    end.
Proof.
  intros H Hx. unfold GetListScoped, HasScoped. pose proof (path_of_scoped sc x H Hx) as P.
  rewrite (value_Has conv t _ _ P). unfold GetList, get_child_optional, value_at. rewrite P.
  assert (P1 : path_of x = [x]).
  { apply (path_of_dotted [x]); [discriminate|constructor; [apply Hx|constructor]|apply Hx]. }
  rewrite P1. destruct (pwalk t (sc_names sc ++ [x])%list); reflexivity.
Qed.

(** writing then reading *)
Lemma pwalk_put_same p v t : value_at (pput p v t) p = Some v.
Proof.
  revert t; induction p as [|k r IH]; intro t; [reflexivity|]. unfold value_at in *. cbn [pput pwalk pchildren].
  rewrite mfind_mset, String.eqb_refl. apply IH.
Qed.
Lemma value_put_other p : forall q v t, q <> p ->
  value_at (pput p v t) q = match value_at t q with Some s => Some s
                            | None => if in_dec (list_eq_dec string_dec) q (map (fun n => firstn n p) (seq 0 (length p))) then Some "" else None end.
Proof.
  induction p as [|k r IH]; intros q v t Hq.
  - destruct q as [|x q]; [congruence|]. unfold value_at. cbn [pput pwalk pchildren].
    destruct (mfind (pchildren t) x) as [c|]; [|reflexivity]. destruct (pwalk c q); reflexivity.
  - destruct q as [|x q].
    + unfold value_at. simpl. reflexivity.
    + unfold value_at. cbn [pput pwalk pchildren]. rewrite mfind_mset.
      assert (Dec : forall c, (k = x -> (if in_dec (list_eq_dec string_dec) q (map (fun n => firstn n r) (seq 0 (length r))) then Some "" else None) = c) ->
         (k <> x -> None = c) ->
         (if in_dec (list_eq_dec string_dec) (x :: q) (map (fun n => firstn n (k :: r)) (seq 0 (length (k :: r)))) then Some "" else None) = c).
      { intros c H1 H2. destruct (in_dec _ (x :: q) _) as [I|I].
        - apply in_map_iff in I. destruct I as (n & E & Hn). apply in_seq in Hn. destruct n as [|n]; [discriminate|]. simpl in E. inversion E; subst.
          rewrite <- H1; [|reflexivity]. destruct (in_dec _ (firstn n r) _) as [J|J]; [reflexivity|]. exfalso. apply J.
          apply in_map_iff. exists n. split; [reflexivity|]. apply in_seq. simpl in Hn. lia.
        - destruct (string_dec k x) as [->|Hne]; [|apply H2; exact Hne]. rewrite <- H1 by reflexivity.
          destruct (in_dec _ q _) as [J|J]; [|reflexivity]. exfalso. apply I. apply in_map_iff in J. destruct J as (n & E & Hn). apply in_seq in Hn.
          apply in_map_iff. exists (S n). split; [simpl; rewrite E; reflexivity|]. apply in_seq. simpl. lia. }
      destruct (String.eqb_spec k x) as [->|Hne].
      * assert (Hq' : q <> r) by congruence. specialize (IH q v (match mfind (pchildren t) x with Some c => c | None => PNode "" [] end) Hq').
        unfold value_at in IH. rewrite IH. destruct (mfind (pchildren t) x) as [c|].
        -- destruct (pwalk c q); [reflexivity|]. symmetry. apply Dec; [reflexivity|congruence].
        -- destruct q as [|y q]; simpl pwalk.
           ++ destruct r as [|y r]; [congruence|]. symmetry. apply Dec; [reflexivity|congruence].
           ++ symmetry. apply Dec; [|congruence]. intros _. reflexivity.
      * destruct (mfind (pchildren t) x) as [c|].
        -- destruct (pwalk c q); [reflexivity|]. symmetry. apply Dec; [congruence|reflexivity].
        -- symmetry. apply Dec; [congruence|reflexivity].
Qed.
Theorem set_get_frame name v t q :
  value_at (Set_scalar name v t) (path_of name) = Some v /\
  (q <> path_of name -> forall s, value_at t q = Some s -> value_at (Set_scalar name v t) q = Some s) /\
  (q <> path_of name -> ~ proper_prefix q (path_of name) -> value_at t q = None -> value_at (Set_scalar name v t) q = None).
Proof.
  unfold Set_scalar. split; [apply pwalk_put_same|]. split.
  - intros Hq s Hs. rewrite value_put_other by exact Hq. rewrite Hs. reflexivity.
  - intros Hq Hp Hn. rewrite value_put_other by exact Hq. rewrite Hn.
    destruct (in_dec _ q _) as [I|I]; [|reflexivity]. exfalso. apply Hp. apply in_map_iff in I. destruct I as (n & E & Hi). apply in_seq in Hi.
    subst q. unfold proper_prefix. destruct (skipn n (path_of name)) as [|x r] eqn:ES.
    + apply (f_equal (@length _)) in ES. rewrite skipn_length in ES. simpl in ES. lia.
    + exists x, r. rewrite <- ES. symmetry. apply firstn_skipn.
Qed.
Theorem set_list_get {T} (conv : string -> option T) name l xs t : Forall2 (fun s x => conv s = Some x) l xs ->
  GetList conv (Set_list name l t) name = Ok xs.
Proof.
  intro H. unfold GetList, get_child_optional, Set_list.
  assert (W : forall p v t, pwalk (pput_child p v t) p = Some v).
  { induction p as [|k r IH]; intros v u; [reflexivity|]. cbn [pput_child pwalk pchildren]. rewrite mfind_mset, String.eqb_refl. apply IH. }
  rewrite W. cbn [pchildren]. induction H as [|s x l xs Hs Hl IH]; [reflexivity|]. cbn [map list_items pdata]. rewrite Hs, IH. reflexivity.
Qed.

(** ** features *)
Lemma path3 sm a b : plain sm -> no_dot a -> plain b -> path_of (sm ++ "." ++ a ++ "." ++ b) = [sm; a; b].
Proof. intros [_ H1] H2 [H3 H4]. apply (path_of_dotted [sm; a; b]); [discriminate|repeat constructor; auto|exact H3]. Qed.
Lemma path_list sm l : plain sm -> l <> [] -> Forall no_dot l -> last l "" <> "" -> path_of (sm ++ "." ++ dotted l) = sm :: l.
Proof.
  intros [_ H1] H2 H3 H4. rewrite <- dotted_cons by exact H2. apply path_of_dotted; [discriminate|constructor; auto|].
  destruct l; [congruence|exact H4].
Qed.
Ltac lit := repeat (match goal with |- Forall _ _ => constructor | |- no_dot _ => simpl; repeat split; discriminate | |- _ <> _ => discriminate end).
Lemma path_method sm : plain sm -> path_of (sm ++ ".redshiftSolver.method") = [sm; "redshiftSolver"; "method"].
Proof. intro H. apply (path_list sm ["redshiftSolver"; "method"] H); lit. Qed.

Lemma read_flag_spec t name p d : path_of name = p -> flag_well_formed t p ->
  exists b, read_flag t name d = Ok b /\ (b = true <-> flag_true t p \/ (value_at t p = None /\ d = true)).
Proof.
  intros P W. unfold read_flag. rewrite (value_Has conv_bool t _ _ P), (value_Get conv_bool t _ _ P).
  unfold flag_true, flag_well_formed in *. destruct (value_at t p) as [s|].
  - specialize (W s eq_refl). destruct (conv_bool s) as [b|] eqn:C; [|congruence]. exists b. split; [reflexivity|]. split.
    + intros ->. left. exists s. auto.
    + intros [(s' & E & F)|(E & _)]; [congruence|discriminate].
  - exists d. split; [reflexivity|]. split; [auto|]. intros [(s' & E & F)|(_ & E)]; [discriminate|exact E].
Qed.

Lemma method_case t sm : plain sm -> (value_at t [sm; "redshiftSolver"; "method"] = None /\ Has conv_string t (sm ++ ".redshiftSolver.method") = false)
  \/ exists m, method_is t sm m /\ Has conv_string t (sm ++ ".redshiftSolver.method") = true /\ Get conv_string t (sm ++ ".redshiftSolver.method") = Ok m.
Proof.
  intro H. pose proof (path_method sm H) as P. unfold method_is.
  rewrite (value_Has conv_string t _ _ P), (value_Get conv_string t _ _ P).
  destruct (value_at t _) as [m|]; [right; exists m; auto|left; auto].
Qed.
Lemma read_flag_none t p : flag_true t p \/ (value_at t p = None /\ false = true) -> flag_true t p.
Proof. intros [H|[_ H]]; [exact H|discriminate]. Qed.

Theorem ism_spec t sm : plain sm -> (forall m p, method_is t sm m -> In p (ism_paths sm m) -> flag_well_formed t p) ->
  exists b, HasTplIsmExtinction t sm = Ok b /\
   (b = true <-> exists m p, method_is t sm m /\ In p (ism_paths sm m) /\ flag_true t p).
Proof.
  intros Hsm W. unfold HasTplIsmExtinction. destruct (method_case t sm Hsm) as [[N H]|(m & M & H & G)]; rewrite H; simpl negb; cbv iota.
  - exists false. split; [reflexivity|]. split; [discriminate|]. intros (m & p & M & _). unfold method_is in M. congruence.
  - rewrite G. cbn [rbind]. specialize (W m).
    assert (U : forall m', method_is t sm m' -> m' = m) by (unfold method_is in *; congruence).
    unfold ism_paths in *.
    destruct (string_dec m "templateFittingSolve") as [E1|E1]; [|destruct (string_dec m "tplCombinationSolve") as [E2|E2]; [|destruct (string_dec m "lineModelSolve") as [E3|E3]]]; try subst m.
    + cbn [orb String.eqb Ascii.eqb Bool.eqb] in *.
      destruct (read_flag_spec t (sm ++ ".redshiftSolver." ++ "templateFittingSolve" ++ ".ismFit") [sm; "redshiftSolver"; "templateFittingSolve"; "ismFit"] false) as (b & E & F).
      { apply (path_list sm ["redshiftSolver"; "templateFittingSolve"; "ismFit"] Hsm); lit. }
      { apply W; simpl; auto. }
      exists b. split; [exact E|]. rewrite F. split.
      * intro K. apply read_flag_none in K. exists "templateFittingSolve", [sm; "redshiftSolver"; "templateFittingSolve"; "ismFit"]. simpl. auto.
      * intros (m' & p & M' & I & T). rewrite (U m' M') in I. simpl in I. destruct I as [<-|[]]. auto.
    + cbn [orb String.eqb Ascii.eqb Bool.eqb] in *.
      destruct (read_flag_spec t (sm ++ ".redshiftSolver." ++ "tplCombinationSolve" ++ ".ismFit") [sm; "redshiftSolver"; "tplCombinationSolve"; "ismFit"] false) as (b & E & F).
      { apply (path_list sm ["redshiftSolver"; "tplCombinationSolve"; "ismFit"] Hsm); lit. }
      { apply W; simpl; auto. }
      exists b. split; [exact E|]. rewrite F. split.
      * intro K. apply read_flag_none in K. exists "tplCombinationSolve", [sm; "redshiftSolver"; "tplCombinationSolve"; "ismFit"]. simpl. auto.
      * intros (m' & p & M' & I & T). rewrite (U m' M') in I. simpl in I. destruct I as [<-|[]]. auto.
    + cbn [orb String.eqb Ascii.eqb Bool.eqb] in *.
      destruct (read_flag_spec t (sm ++ ".redshiftSolver." ++ "lineModelSolve" ++ ".lineModel.continuumFit.ismFit") [sm; "redshiftSolver"; "lineModelSolve"; "lineModel"; "continuumFit"; "ismFit"] false) as (b & E & F).
      { apply (path_list sm ["redshiftSolver"; "lineModelSolve"; "lineModel"; "continuumFit"; "ismFit"] Hsm); lit. }
      { apply W; simpl; auto. }
      destruct (read_flag_spec t (sm ++ ".redshiftSolver." ++ "lineModelSolve" ++ ".lineModel.tplRatioIsmFit") [sm; "redshiftSolver"; "lineModelSolve"; "lineModel"; "tplRatioIsmFit"] false) as (b' & E' & F').
      { apply (path_list sm ["redshiftSolver"; "lineModelSolve"; "lineModel"; "tplRatioIsmFit"] Hsm); lit. }
      { apply W; simpl; auto. }
      rewrite E, E'. cbn [rbind]. exists (b || b')%bool. split; [reflexivity|]. rewrite orb_true_iff, F, F'. split.
      * intros [K|K]; apply read_flag_none in K; eexists "lineModelSolve", _; (split; [exact M|]); (split; [|exact K]); simpl; auto.
      * intros (m' & p & M' & I & T). rewrite (U m' M') in I. simpl in I. destruct I as [<-|[<-|[]]]; auto.
    + apply String.eqb_neq in E1, E2, E3. rewrite E1, E2, E3. cbn [orb].
      exists false. split; [reflexivity|]. split; [discriminate|]. intros (m' & p & M' & I & T).
      rewrite (U m' M'), E1, E2, E3 in I. destruct I.
Qed.

Theorem igm_spec t sm : plain sm -> (forall m, method_is t sm m -> known_method m /\ flag_well_formed t (igm_path sm m)) ->
  exists b, HasTplIgmExtinction t sm = Ok b /\ (b = true <-> exists m, method_is t sm m /\ flag_true t (igm_path sm m)).
Proof.
  intros Hsm W. unfold HasTplIgmExtinction. destruct (method_case t sm Hsm) as [[N H]|(m & M & H & G)]; rewrite H; simpl negb; cbv iota.
  - exists false. split; [reflexivity|]. split; [discriminate|]. intros (m & M & _). unfold method_is in M. congruence.
  - rewrite G. cbn [rbind].
    assert (U : forall m', method_is t sm m' -> m' = m) by (unfold method_is in *; congruence).
    destruct (W m M) as [K Wf].
    match goal with |- exists b, read_flag t ?n false = _ /\ _ => destruct (read_flag_spec t n (igm_path sm m) false) as (b & E & F) end.
    + destruct K as [K|[K|K]]; subst m; cbn [orb String.eqb Ascii.eqb Bool.eqb]; rewrite !append_assoc_s.
      * apply (path_list sm ["redshiftSolver"; "templateFittingSolve"; "igmFit"] Hsm); lit.
      * apply (path_list sm ["redshiftSolver"; "tplCombinationSolve"; "igmFit"] Hsm); lit.
      * apply (path_list sm ["redshiftSolver"; "lineModelSolve"; "lineModel"; "continuumFit"; "igmFit"] Hsm); lit.
    + exact Wf.
    + exists b. split; [exact E|]. rewrite F. split.
      * intro X. apply read_flag_none in X. exists m. auto.
      * intros (m' & M' & T). rewrite (U m' M') in T. auto.
Qed.

(** an unknown method makes the IGM query read the method's own section as a boolean *)
Theorem igm_unknown_method_throws : exists t sm, plain sm /\ HasTplIgmExtinction t sm = Throw MISSING_PARAMETER /\
  HasTplIsmExtinction t sm = Ok false.
Proof.
  exists (PNode "" [("galaxy", PNode "" [("redshiftSolver", PNode "" [("method", PNode "other" []);
          ("other", PNode "" [("igmFit", PNode "true" [])])])])]), "galaxy".
  repeat split; try discriminate.
Qed.

Theorem fft_spec t sm : plain sm -> (forall m, method_is t sm m -> flag_well_formed t (fft_path sm m)) ->
  exists b, HasFFTProcessing t sm = Ok b /\
    (b = true <-> exists m, method_is t sm m /\ (m = "templateFittingSolve" \/ m = "lineModelSolve") /\ flag_true t (fft_path sm m)).
Proof.
  intros Hsm W. unfold HasFFTProcessing. destruct (method_case t sm Hsm) as [[N H]|(m & M & H & G)]; rewrite H; simpl negb; cbv iota.
  - exists false. split; [reflexivity|]. split; [discriminate|]. intros (m & M & _). unfold method_is in M. congruence.
  - rewrite G. cbn [rbind].
    assert (U : forall m', method_is t sm m' -> m' = m) by (unfold method_is in *; congruence).
    specialize (W m M).
    destruct (string_dec m "templateFittingSolve") as [E1|E1]; [|destruct (string_dec m "lineModelSolve") as [E2|E2]]; try subst m.
    + cbn [String.eqb Ascii.eqb Bool.eqb].
      destruct (read_flag_spec t (sm ++ ".redshiftSolver.templateFittingSolve.fftProcessing") (fft_path sm "templateFittingSolve") false) as (b & E & F).
      { apply (path_list sm ["redshiftSolver"; "templateFittingSolve"; "fftProcessing"] Hsm); lit. }
      { exact W. }
      exists b. split; [exact E|]. rewrite F. split.
      * intro X. apply read_flag_none in X. exists "templateFittingSolve". auto.
      * intros (m' & M' & _ & T). rewrite (U m' M') in T. auto.
    + cbn [String.eqb Ascii.eqb Bool.eqb].
      destruct (read_flag_spec t (sm ++ ".redshiftSolver.lineModelSolve.lineModel.continuumFit.fftProcessing") (fft_path sm "lineModelSolve") false) as (b & E & F).
      { apply (path_list sm ["redshiftSolver"; "lineModelSolve"; "lineModel"; "continuumFit"; "fftProcessing"] Hsm); lit. }
      { exact W. }
      exists b. split; [exact E|]. rewrite F. split.
      * intro X. apply read_flag_none in X. exists "lineModelSolve". auto.
      * intros (m' & M' & _ & T). rewrite (U m' M') in T. auto.
    + pose proof E1 as E1'. pose proof E2 as E2'. apply String.eqb_neq in E1, E2. rewrite E1, E2. exists false. split; [reflexivity|]. split; [discriminate|].
      intros (m' & M' & K & _). rewrite (U m' M') in K. destruct K; contradiction.
Qed.

(** the log-rebin decision: the map holds the answer of each category, the flag says whether one is set *)
Theorem log_rebin_spec t cats : forall fft use r, hasToLogRebin t cats fft use = Ok r ->
  (fst r = true <-> use = true \/ exists c, In c cats /\ HasFFTProcessing t c = Ok true) /\
  (forall c, In c cats -> exists b, HasFFTProcessing t c = Ok b /\ mfind (snd r) c = Some b) /\
  (forall c, ~ In c cats -> mfind (snd r) c = mfind fft c).
Proof.
  induction cats as [|c cats IH]; intros fft use r H; simpl in H.
  - inversion H; subst; simpl. split; [|split; [intros c []|auto]]. split; [auto|]. intros [K|(c & [] & _)]; exact K.
  - destruct (HasFFTProcessing t c) as [b|e|] eqn:E; try discriminate. cbn [rbind] in H.
    destruct (IH _ _ _ H) as (I1 & I2 & I3). split; [|split].
    + rewrite I1, orb_true_iff. split.
      * intros [[K|K]|(c' & Hc & K)]; [left; exact K|right; exists c; subst; simpl; auto|right; exists c'; simpl; auto].
      * intros [K|(c' & [Hc|Hc] & K)]; [auto|subst c'; rewrite E in K; inversion K; auto|right; eauto].
    + intros c' Hc'. destruct (in_dec string_dec c' cats) as [Hi|Hi]; [apply I2; exact Hi|].
      destruct Hc' as [Hc'|Hc']; [|contradiction]. subst c'. exists b. split; [exact E|]. rewrite I3 by exact Hi. rewrite mfind_mset, String.eqb_refl. reflexivity.
    + intros c' Hc'. rewrite I3 by (intro; apply Hc'; simpl; auto). rewrite mfind_mset.
      destruct (String.eqb_spec c c') as [e|]; [exfalso; apply Hc'; simpl; auto|reflexivity].
Qed.

(** the smallest redshift step over the categories that use FFT *)
Open Scope Q_scope.
Theorem min_zstep_spec conv t fft : forall acc r, getMinZStep conv t fft acc = Ok r ->
  (forall c, In (c, true) fft -> exists s, Get conv t (c ++ ".redshiftStep")%string = Ok s /\ exists m, r = Some m /\ m <= s) /\
  (forall a, acc = Some a -> exists m, r = Some m /\ m <= a) /\
  (forall m, r = Some m -> acc = Some m \/ exists c, In (c, true) fft /\ Get conv t (c ++ ".redshiftStep")%string = Ok m).
Proof.
  induction fft as [|[c b] fft IH]; intros acc r H; simpl in H.
  - inversion H; subst. split; [intros c []|]. split; [intros a ->; exists a; split; [reflexivity|lra]|auto].
  - destruct b.
    + destruct (Get conv t (c ++ ".redshiftStep")%string) as [s|e|] eqn:E; try discriminate. cbn [rbind] in H.
      destruct (IH _ _ H) as (I1 & I2 & I3).
      destruct (I2 _ eq_refl) as (m & Hm & Hle). split; [|split].
      * intros c' [Hc|Hc].
        -- inversion Hc; subst c'. exists s. split; [exact E|]. exists m. split; [exact Hm|].
           destruct acc as [a|]; [|exact Hle]. destruct (Qltb_spec a s); lra.
        -- apply I1; exact Hc.
      * intros a Ha. subst acc. exists m. split; [exact Hm|]. destruct (Qltb_spec a s); lra.
      * intros m' Hm'. destruct (I3 m' Hm') as [K|(c' & Hc & K)].
        -- destruct acc as [a|]; [destruct (Qltb a s); inversion K; subst; [left; reflexivity|]|inversion K; subst];
             right; exists c; simpl; auto.
        -- right; exists c'; simpl; auto.
    + destruct (IH _ _ H) as (I1 & I2 & I3). split; [|split; [exact I2|]].
      * intros c' [Hc|Hc]; [discriminate|apply I1; exact Hc].
      * intros m Hm. destruct (I3 m Hm) as [K|(c' & Hc & K)]; [auto|right; exists c'; simpl; auto].
Qed.
Open Scope string_scope.
(** orthogonalisation *)
Theorem ortho_spec t sm b : plain sm -> HasToOrthogonalizeTemplates t sm = Ok b ->
  (b = true <-> method_is t sm "lineModelSolve" /\
     exists c, value_at t [sm; "redshiftSolver"; "lineModelSolve"; "lineModel"; "continuumComponent"] = Some c /\ (c = "tplFit" \/ c = "tplFitAuto")).
Proof.
  intro Hsm. unfold HasToOrthogonalizeTemplates.
  assert (P : path_of (sm ++ ".redshiftSolver.lineModelSolve.lineModel.continuumComponent") = [sm; "redshiftSolver"; "lineModelSolve"; "lineModel"; "continuumComponent"])
    by (apply (path_list sm ["redshiftSolver"; "lineModelSolve"; "lineModel"; "continuumComponent"] Hsm); lit).
  destruct (method_case t sm Hsm) as [[N H]|(m & M & H & G)]; rewrite H.
  - cbn [rbind]. intro K; inversion K; subst. split; [discriminate|]. intros [M _]. unfold method_is in M. congruence.
  - rewrite G. cbn [rbind]. destruct (String.eqb_spec m "lineModelSolve") as [Em|Em].
    + destruct (Get conv_string t (sm ++ ".redshiftSolver.lineModelSolve")) as [u|e|]; try discriminate. cbn [rbind].
      rewrite (value_Get conv_string t _ _ P). destruct (value_at t _) as [c|]; cbn [conv_string rbind]; [|discriminate].
      intro K; inversion K as [K']. rewrite orb_true_iff, !String.eqb_eq. subst m. split.
      * intro D. split; [exact M|]. exists c. auto.
      * intros [_ (c' & E & D)]. inversion E; subst. exact D.
    + intro K; inversion K; subst. split; [discriminate|]. intros [M' _]. unfold method_is in *. congruence.
Qed.
