(** Witnesses (C96). *)
From Coq Require Import String Permutation Sorted.
From Verif Require Import Base RdrModel RdrSpec RdrProofs RdrProofs2 RdrProofs3 RdrProofs4 RdrProofs5.
Open Scope string_scope.

(** *** consequences for every input *)
Theorem loaded_keys sort p r l : dictionaries r -> init sort p r = Val l -> waves r <> [] ->
  forall f, In f (filters_of p) -> In (f_key f) (["waves"; "fluxes"; "errors"] ++ dkeys (others r))%list.
Proof.
  intros D E NE f F. destruct (init_inv _ _ _ _ E) as (_ & O & (ts0 & E0 & E1) & _). apply tables_len in E0. apply apply_filters_spec in E1.
  destruct (waves r) as [|(o, w) ws] eqn:W; [contradiction|]. cbn [dkeys map] in E0. inversion E0 as [|? e0 ? l0 (K0 & F0)]; subst. inversion E1 as [|? e1 ? l1 (K1 & F1)]; subst.
  assert (P : present r (fst e0)) by (apply ids_present; [exact O|rewrite W; left; reflexivity]).
  destruct (full_table_spec _ _ _ (d_others _ D) P F0) as (_ & Q0 & _). unfold apply in F1. apply pbind_inv in F1. destruct F1 as (ms & F1 & _). apply pmap_ok in F1.
  assert (X : exists m, compliant_lines (snd e0) f = Val m).
  { clear -F1 F. induction F1 as [|g m l ms E F1 IH]; [contradiction|]. destruct F as [F|F]; [subst g; exists m; exact E|apply IH, F]. }
  destruct X as (m & X). unfold compliant_lines in X. rewrite Q0 in X. unfold given in X. apply in_or_app.
  destruct (dget (f_key f) (others r)) as [d|] eqn:Do; [right; apply dget_key; exists d; exact Do|left]. cbn [In].
  destruct (String.eqb_spec (f_key f) "waves") as [Q1|]; [left; congruence|]. destruct (String.eqb_spec (f_key f) "fluxes") as [Q1|]; [right; left; congruence|].
  destruct (String.eqb_spec (f_key f) "errors") as [Q1|]; [right; right; left; congruence|discriminate].
Qed.
Lemma dkeys_put {A} k k' (v : A) d : In k (dkeys (dput k' v d)) <-> k = k' \/ In k (dkeys d).
Proof.
  rewrite !dget_key. rewrite dget_put. destruct (String.eqb_spec k k') as [E|N].
  - split; [left; exact E|intros _; exists v; reflexivity].
  - split; [right; assumption|intros [H|H]; [contradiction|exact H]].
Qed.
Theorem ascii_names r obs w f e cols o : In o (dkeys (waves (ascii_load r obs w f e cols))) <-> o = "" \/ In o (dkeys (waves r)).
Proof. apply dkeys_put. Qed.
Theorem ascii_replaced r obs w f e cols : dget "" (waves (ascii_load r obs w f e cols)) = Some w /\
  dget "" (fluxes (ascii_load r obs w f e cols)) = Some f /\ dget "" (errors (ascii_load r obs w f e cols)) = Some e.
Proof. cbn. rewrite !dget_put. repeat split. Qed.
Theorem range_min_full p q : p_multi p = Full -> get_lambda_range_min p = Val q -> (q <= 3)%Q.
Proof.
  intros M. unfold get_lambda_range_min. rewrite M. assert (B : forall b, Val ten_xor_nine = Val b -> (b <= 3)%Q) by (intros b H; apply Val_inj in H; subst b; discriminate).
  revert B. generalize (Val ten_xor_nine). induction (get_observation_ids p) as [|o l IH]; intros a B E; cbn in E; [apply B, E|].
  refine (IH _ _ E). intros b H. apply pbind_inv in H. destruct H as (x & -> & H). apply pbind_inv in H. destruct H as (cur & Hc & H). apply Val_inj in H.
  specialize (B x eq_refl). destruct (Qltb_spec (fst cur) x) as [L|L]; subst b; lra.
Qed.
Theorem range_max_min p : p_multi p <> Full -> get_lambda_range_max p = get_lambda_range_min p.
Proof. unfold get_lambda_range_max, get_lambda_range_min. destruct (p_multi p); [reflexivity|reflexivity|contradiction]. Qed.
Theorem v2_method d m : get_airvacuum_method 2 d = Val m -> m = "".
Proof.
  unfold get_airvacuum_method, schema_check. destruct (forallb (fun k => k =? air_key 2) (dkeys d)) eqn:E; [|discriminate]. cbn [pbind]. intro H. apply Val_inj in H. subst m.
  replace (dget "airVacuumMethod" _) with (@None string); [reflexivity|]. induction d as [|(k, v) d IH]; [reflexivity|]. cbn in E. apply andb_true_iff in E. destruct E as (E & E').
  apply String.eqb_eq in E. subst k. cbn in *. apply IH, E'.
Qed.

(** *** a sorting algorithm *)
Fixpoint put_row (x : Q * (cell * cell)) (l : list (Q * (cell * cell))) :=
  match l with [] => [x] | y :: t => if Qle_bool (fst x) (fst y) then x :: y :: t else y :: put_row x t end.
Fixpoint isort (l : list (Q * (cell * cell))) := match l with [] => [] | x :: t => put_row x (isort t) end.
Lemma put_perm x l : Permutation (x :: l) (put_row x l).
Proof.
  induction l as [|y l IH]; cbn; [apply Permutation_refl|]. destruct (Qle_bool (fst x) (fst y)); [apply Permutation_refl|].
  eapply Permutation_trans; [apply perm_swap|]. apply perm_skip, IH.
Qed.
Lemma isort_sorts : sorts isort.
Proof.
  intro l. induction l as [|x l (P & S0)]; [split; constructor|]. split.
  - cbn. eapply Permutation_trans; [apply perm_skip, P|apply put_perm].
  - cbn. clear P. induction S0 as [|y t S1 IH F]; cbn; [constructor; constructor|]. destruct (Qle_bool (fst x) (fst y)) eqn:E.
    + apply Qle_bool_iff in E. constructor; [constructor; assumption|]. constructor; [exact E|]. apply Forall_forall. intros z Z. rewrite Forall_forall in F. specialize (F z Z). cbv beta in F. lra.
    + assert (L : (fst y <= fst x)%Q) by (destruct (Qlt_le_dec (fst x) (fst y)) as [L|L]; [|exact L]; exfalso; assert (X : Qle_bool (fst x) (fst y) = true) by (apply Qle_bool_iff; lra); congruence).
      constructor; [exact IH|]. apply Forall_forall. intros z Z. apply (Permutation_in _ (Permutation_sym (put_perm x t))) in Z. destruct Z as [<-|Z]; [exact L|]. rewrite Forall_forall in F. apply F, Z.
Qed.

(** *** examples *)
Definition q (z : Z) : cell := Some (inject_Z z).
(** a spectrum of four samples with a flag *)
Definition one : reader :=
  mkReader [("", [q 10; q 20; q 30; q 40])] [("", [q 1; q 2; None; q 4])] [("", [q 1; q 1; q 1; q 2])] [("flag", [("", Ints [0; 9; 8; 1]%Z)])] true.
Definition mono fs := mkParams Mono (Range 10 40) (Some fs) ["flag"] "".
(** two observations which overlap *)
Definition two : reader :=
  mkReader [("a", [q 10; q 20; q 30]); ("b", [q 20; q 40; q 30])] [("a", [q 1; q 2; q 3]); ("b", [q 4; q 5; q 6])]
           [("a", [q 1; q 1; q 1]); ("b", [q 2; q 2; q 2])] [] false.
Definition merge2 fs := mkParams Merge (Range 10 30) (Some fs) [] "default".
Definition full2 := mkParams Full (PerObs [("a", (10, 30)%Q); ("b", (20, 40)%Q)]) None [] "".

Lemma one_ok : dictionaries one.
Proof. constructor; cbn; repeat constructor; auto. intros n d [E|[]]. injection E as <- <-. repeat constructor. auto. Qed.
Lemma two_ok : dictionaries two.
Proof.
  assert (N : NoDup ["a"; "b"]) by (constructor; [intros [E|[]]; discriminate|constructor; [intros []|constructor]]).
  constructor; [exact N|exact N|exact N|constructor|intros n d []].
Qed.

Example filtered : exists l, init isort (mono [mkFilt "flag" "0&" (VInt 8); mkFilt "waves" "<" (VFloat 35)]) one = Val l /\
  spectra l = [("", [(q 10, q 1, q 1); (q 20, q 2, q 1); (q 30, None, q 1)])] /\ conversion l = "morton2000" /\ tighter l = [].
Proof. eexists. split; [vm_compute; reflexivity|]. repeat split. Qed.
Example merged_two : exists l, init isort (merge2 [mkFilt "fluxes" "<" (VInt 6)]) two = Val l /\
  map (fun x => snd (fst x)) (match dget "" (spectra l) with Some s => s | None => [] end) = [q 1; q 2; q 4; q 3; q 5] /\
  ignored l = true /\ conversion l = "" /\ tighter l = ["b"].
Proof. eexists. split; [vm_compute; reflexivity|]. repeat split. Qed.
Example full_two : exists l, init isort full2 two = Val l /\ map fst (spectra l) = ["a"; "b"] /\ tighter l = ["b"].
Proof. eexists. split; [vm_compute; reflexivity|]. repeat split. Qed.
(** wavelengths closer than the shifts *)
Definition close : reader :=
  mkReader [("a", [Some 1%Q; Some 1%Q]); ("b", [Some (1 + (1 # 10000000000))%Q; Some 2%Q])] [("a", [q 1; q 2]); ("b", [q 3; q 4])]
           [("a", [q 1; q 1]); ("b", [q 2; q 2])] [] false.
Example merge_refuses : init isort (merge2 []) close = Err (Api "UNALLOWED_DUPLICATES").
Proof. vm_compute. reflexivity. Qed.
Definition merge3 := mkParams Merge (Range 1 2) None [] "".
Example merge_nothing : init isort (mkParams Merge (Range 10 30) (Some [mkFilt "fluxes" ">" (VInt 9)]) [] "") two = Err Python.
Proof. vm_compute. reflexivity. Qed.
Example accepted_case : exists l, init isort (mono [mkFilt "flag" "~&" (VInt 8)]) one = Val l.
Proof.
  apply load_accepts; [exact one_ok| |exact isort_sorts|cbn; intuition discriminate|cbn; intuition discriminate| | |discriminate|reflexivity].
  - repeat apply conj; try (intro o; reflexivity).
    + intros n d [E|[]] o. injection E as <- <-. reflexivity.
    + intros o w W n c G. assert (o = "") by (cbn in W; destruct (String.eqb_spec o ""); [assumption|discriminate]). subst o. cbn in W. injection W as <-.
      unfold given in G. cbn in G. destruct (n =? "flag"); [injection G as <-; reflexivity|]. destruct (n =? "waves"); [injection G as <-; reflexivity|].
      destruct (n =? "fluxes"); [injection G as <-; reflexivity|]. destruct (n =? "errors"); [injection G as <-; reflexivity|discriminate].
  - intros o [<-|[]]. split; [exists 10%Q, 40%Q; left; split; [discriminate|reflexivity]|]. eexists. split; [reflexivity|discriminate].
  - intros o f [<-|[]] [<-|[]]. exists (Ints [0; 9; 8; 1]%Z). split; [reflexivity|]. right. right. cbn. repeat split; auto; eexists; reflexivity.
Qed.

(** *** refutations *)
Lemma all_filtered : exists p r l, dictionaries r /\ init isort p r = Val l /\ spectra l = [("", [])] /\ tighter l = [] /\ p_multi p = Mono.
Proof.
  exists (mono [mkFilt "fluxes" ">" (VInt 9)]), one. eexists. split; [exact one_ok|]. split; [vm_compute; reflexivity|]. repeat split.
Qed.
Lemma cut_by_filter : exists p r l x, dictionaries r /\ init isort p r = Val l /\ spectra l = [("", x)] /\ tighter l = [] /\
  asked p "" 10 40 /\ forall y v, In y x -> wave y = Some v -> (v <= 30)%Q.
Proof.
  exists (mono [mkFilt "waves" "<" (VInt 35)]), one. do 2 eexists. split; [exact one_ok|]. split; [vm_compute; reflexivity|]. split; [reflexivity|]. split; [reflexivity|].
  split; [left; split; [discriminate|reflexivity]|]. intros y v Y E. cbn in Y.
  destruct Y as [<-|[<-|[<-|[]]]]; cbn in E; injection E as <-; discriminate.
Qed.
Lemma capital_keys : exists p, check_filters p = Val tt /\ forall sort r l, dictionaries r -> waves r <> [] -> ~ In "Wave" (dkeys (others r)) -> init sort p r <> Val l.
Proof.
  exists (mono [mkFilt "Wave" "<" (VInt 35)]). split; [reflexivity|]. intros sort r l D NE N E.
  pose proof (loaded_keys _ _ _ _ D E NE _ (or_introl eq_refl)) as K. cbn in K. destruct K as [K|[K|[K|K]]]; try discriminate. contradiction.
Qed.
Lemma small_keys : exists p r l, check_filters p = Err (Api "INVALID_PARAMETER_FILE") /\ init isort p r = Val l.
Proof. exists (mono [mkFilt "waves" "<" (VInt 35)]), one. eexists. split; [reflexivity|]. vm_compute. reflexivity. Qed.
(** the instructions of the schemas, jsonschema-v1/general.json, jsonschema-v2/general.json:122-136 *)
Definition schema_instructions : list string := ["<"; ">"; "<="; ">="; "="; "in"; "~in"; "!="; "~&"; "&"; "0&"; "^"; "~^"].
Lemma notxor : exists i, In i schema_instructions /\ (exists m, comparator i (VInt 8) (Ints [8; 9]%Z) = Val m) /\
  forall sort p r l f, In f (filters_of p) -> f_instr f = i -> init sort p r <> Val l.
Proof.
  exists "~^". split; [cbn; tauto|]. split; [eexists; reflexivity|]. intros sort p r l f F I E. destruct (init_inv _ _ _ _ E) as (_ & _ & _ & A & _).
  specialize (A f F). rewrite I in A. cbn in A. intuition discriminate.
Qed.
(** "flag corresponding to 8 is absent" (jsonschema-v2/general.json:111) *)
Lemma xor_present : exists p r l x, dictionaries r /\ p_filters p = Some [mkFilt "flag" "^" (VInt 8)] /\ init isort p r = Val l /\ spectra l = [("", x)] /\
  exists k a, In (k, a) (combine [q 10; q 20; q 30; q 40] [0; 9; 8; 1]%Z) /\ dget "flag" (others r) = Some [("", Ints [0; 9; 8; 1]%Z)] /\ shares_bit a 8 /\ In k (map wave x).
Proof.
  exists (mono [mkFilt "flag" "^" (VInt 8)]), one. do 2 eexists. split; [exact one_ok|]. split; [reflexivity|]. split; [vm_compute; reflexivity|]. split; [reflexivity|].
  exists (q 20), 9%Z. repeat apply conj; [cbn; tauto|reflexivity|exists 3%Z; repeat split; lia|cbn; tauto].
Qed.
Lemma v1_method : get_airvacuum_method 1 [("airvacuum_method", "edlen1953")] = Val "edlen1953".
Proof. reflexivity. Qed.
Lemma v2_refused : exists d, get_airvacuum_method 2 d = Val "" /\ dget "airvacuumMethod" d = Some "edlen1953".
Proof. exists [("airvacuumMethod", "edlen1953")]. split; reflexivity. Qed.
Lemma ascii_two : let r := ascii_load (ascii_load no_data "a" [q 10] [q 1] [q 1] []) "b" [q 20] [q 2] [q 2] [] in
  dkeys (waves r) = [""] /\ ~ In "a" (dkeys (waves r)) /\ ~ In "b" (dkeys (waves r)) /\ dget "" (waves r) = Some [q 20].
Proof. cbn. repeat split; intros [E|[]]; discriminate. Qed.
Lemma column_fluxes : exists p r l, dictionaries r /\ init isort p r = Val l /\ dget "" (fluxes r) = Some [q 1; q 2] /\
  spectra l = [("", [(q 10, q 7, q 1); (q 20, q 8, q 1)])].
Proof.
  exists (mkParams Mono (Range 10 20) None ["fluxes"] ""), (mkReader [("", [q 10; q 20])] [("", [q 1; q 2])] [("", [q 1; q 1])] [("fluxes", [("", Ints [7; 8]%Z)])] false).
  eexists. split; [|split; [vm_compute; reflexivity|split; reflexivity]].
  constructor; cbn; repeat constructor; auto. intros n d [E|[]]. injection E as <- <-. repeat constructor. auto.
Qed.
