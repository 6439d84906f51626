From Coq Require Import String.
From Verif Require Import Base RangeModel RangeProofs RangeGridProofs F64 RatSpec RatProofs LyaModel LyaSpec LyaProofs.
Open Scope Q_scope.

Lemma getp es k i p : prof es k i = Some p -> getLineProfile es k i = Ok p.
Proof.
  unfold prof, getLineProfile, vget. destruct (nth_error es k) as [e|]; [|discriminate]. cbn [rbind]. destruct (nth_error (e_lines e) i) as [x|]; [|discriminate]. cbn [rbind]. intro E. injection E as <-. reflexivity.
Qed.
Lemma prof_some es k e i : nth_error es k = Some e -> (i < List.length (e_lines e))%nat -> exists p, prof es k i = Some p.
Proof. intros N L. unfold prof. rewrite N. destruct (nth_error_lt _ _ L) as (x & ->). eauto. Qed.
Lemma keep_spec test es k idx : (forall i, In i idx -> exists p, prof es k i = Some p) ->
  exists r, keep_lines test es k idx = Ok r /\ forall i, In i r <-> In i idx /\ exists p, prof es k i = Some p /\ test p i = true.
Proof.
  induction idx as [|i t IH]; intro H; [exists []; split; [reflexivity|]; intro i; split; [intros []|intros ([] & _)]|].
  destruct (H i (or_introl eq_refl)) as (p & P). cbn [keep_lines]. rewrite (getp _ _ _ _ P). cbn [rbind].
  destruct IH as (r & E & R); [intros j I; apply H; right; exact I|]. rewrite E. cbn [rbind]. eexists. split; [reflexivity|]. intro j. destruct (test p i) eqn:T; cbn [In]; rewrite R.
  - split.
    + intros [->|(I & X)]; [split; [left; reflexivity|exists p; auto]|split; [right; exact I|exact X]].
    + intros ([->|I] & X); [left; reflexivity|right; auto].
  - split.
    + intros (I & X). auto.
    + intros ([->|I] & X); [destruct X as (p' & P' & T'); congruence|auto].
Qed.
Lemma igm_of_kind cont z p : kind (igm_of cont z p) = kind p.
Proof. destruct p, cont; reflexivity. Qed.
Lemma igm_of_twice cont z p : igm_of cont z (igm_of cont z p) = igm_of cont z p.
Proof. destruct p, cont; reflexivity. Qed.
Lemma igm_of_special cont z p : isSymIgm p = false -> igm_of cont z p = p.
Proof. destruct p; cbn; intro; try discriminate; reflexivity. Qed.
Lemma setSym_spec cont z es k : wf es -> (k < List.length es)%nat -> setSymIgmProfile cont z es k = Ok (remap (fun k' _ p => if Nat.eqb k' k then igm_of cont z p else p) es).
Proof.
  intros W L. unfold setSymIgmProfile. destruct cont as [j|].
  - rewrite (on_elt_spec _ es k W (sp_fit false) L). cbn [rbind]. rewrite on_elt_spec.
    + f_equal. rewrite remap_remap. apply remap_ext. intros k' i p _. destruct (Nat.eqb k' k); [|reflexivity]. destruct p; reflexivity.
    + apply wf_kind; [exact W|]. intros k' i p. destruct (Nat.eqb k' k); [destruct p|]; reflexivity.
    + apply sp_igm.
    + rewrite remap_len. exact L.
  - rewrite (on_elt_spec _ es k W (sp_fit true) L). apply f_equal. apply remap_ext. intros k' i p _. destruct (Nat.eqb k' k); [|reflexivity]. destruct p; reflexivity.
Qed.
Lemma symigm_spec cont z igm : forall es, wf es -> (forall k l, In (k, l) igm -> exists e, nth_error es k = Some e /\ e_asym e = l) ->
  symigm_loop cont z igm es = Ok (remap (fun k _ p => if inb k (map fst igm) then igm_of cont z p else p) es).
Proof.
  induction igm as [|[k l] t IH]; intros es W H; [cbn; f_equal; symmetry; apply remap_id|]. cbn [symigm_loop].
  destruct (H k l (or_introl eq_refl)) as (e & N & A). destruct (W e (nth_error_In _ _ N)) as (D & B & C).
  destruct (keep_spec (fun p _ => isSymIgm p) es k l) as (r & E & R). { intros i I. apply (prof_some es k e i N). apply B. rewrite A. exact I. }
  rewrite E. cbn [rbind]. assert (Lk : (k < List.length es)%nat) by (apply (nth_error_len _ _ _ N)).
  assert (E1 : match r with [] => Ok es | _ => setSymIgmProfile cont z es k end = Ok (remap (fun k' _ p => if Nat.eqb k' k then igm_of cont z p else p) es)).
  { destruct r as [|r0 rs]; [|apply setSym_spec; auto]. f_equal. symmetry. rewrite <- (remap_id es) at 2. apply remap_ext. intros k' i p P. destruct (Nat.eqb_spec k' k) as [->|_]; [|reflexivity].
    destruct (isSymIgm p) eqn:K; [|apply igm_of_special; exact K]. exfalso. unfold prof in P. rewrite N in P. destruct (nth_error (e_lines e) i) as [x|] eqn:Nx; [|discriminate]. injection P as <-.
    assert (I : In i []). { apply R. split; [rewrite <- A; apply (C i x Nx); rewrite K; apply orb_true_r|]. exists (snd x). split; [unfold prof; rewrite N, Nx; reflexivity|exact K]. }
    destruct I. }
  rewrite E1. cbn [rbind]. rewrite IH.
  - f_equal. rewrite remap_remap. apply remap_ext. intros k' i p _. cbn [map fst inb existsb]. fold (inb k' (map fst t)). destruct (Nat.eqb k' k); cbn [orb]; destruct (inb k' (map fst t)); try reflexivity. apply igm_of_twice.
  - apply wf_kind; [exact W|]. intros k' i p. destruct (Nat.eqb k' k); [apply igm_of_kind|reflexivity].
  - intros k' l' I. destruct (H k' l' (or_intror I)) as (e' & N' & A'). exists (remap_e (fun i p => if Nat.eqb k' k then igm_of cont z p else p) e'). rewrite remap_nth, N'. split; [reflexivity|exact A'].
Qed.
Lemma from_catalog_eq f ref : from_catalog f ref = chosen f ref.
Proof. unfold from_catalog, chosen. destruct ref; cbn; rewrite ?andb_false_r, ?andb_true_r; try reflexivity; destruct (f_disable f), (f_force f); reflexivity. Qed.

(** ** setLyaProfile *)
Lemma first_some es k i : first_marked es k i -> wf es -> exists e x, nth_error es k = Some e /\ In i (e_asym e) /\ nth_error (e_lines e) i = Some x.
Proof.
  intros ((e & t & N & A) & _) W. destruct (W e (nth_error_In _ _ N)) as (_ & B & _). destruct (nth_error_lt (e_lines e) i) as (x & Nx); [apply B; rewrite A; left; reflexivity|].
  exists e, x. split; [exact N|]. split; [rewrite A; left; reflexivity|exact Nx].
Qed.
Lemma marked_igm es k i p : wf es -> prof es k i = Some p -> isSymIgm p = true -> inb k (map fst (getIgmLinesIndices es)) = true.
Proof.
  intros W P K. unfold prof in P. destruct (nth_error es k) as [e|] eqn:N; [|discriminate]. destruct (nth_error (e_lines e) i) as [x|] eqn:Nx; [|discriminate]. injection P as <-.
  destruct (W e (nth_error_In _ _ N)) as (_ & _ & C). assert (I : In i (e_asym e)) by (apply (C i x Nx); rewrite K; apply orb_true_r).
  apply inb_spec. apply in_map_iff. exists (k, e_asym e). split; [reflexivity|]. apply igm_in. exists e. split; [exact N|]. split; [reflexivity|]. intro Z. rewrite Z in I. destruct I.
Qed.
Lemma symigm_all cont z es : wf es -> symigm_loop cont z (getIgmLinesIndices es) es = Ok (remap (fun _ _ p => igm_of cont z p) es).
Proof.
  intro W. rewrite symigm_spec; auto.
  - f_equal. apply remap_ext. intros k i p P. destruct (isSymIgm p) eqn:K; [rewrite (marked_igm es k i p W P K); reflexivity|].
    rewrite igm_of_special by exact K. destruct (inb k (map fst (getIgmLinesIndices es))); reflexivity.
  - intros k l I. apply igm_in in I. destruct I as (e & N & A & _). exists e. auto.
Qed.
Lemma set_spec f cont z cat es k0 i0 p0 id ref : wf es -> first_marked es k0 i0 -> prof es k0 i0 = Some p0 -> line_id es k0 i0 = Some id ->
  (isAsym p0 = true -> at_ cat id = Ok ref) -> setLyaProfile f cont z cat es = Ok (remap (set_fun f cont z ref k0 i0) es).
Proof.
  intros W F P Id Hc. unfold setLyaProfile. destruct (igm_first es k0 i0 F) as (t & r & E). rewrite E. cbn [front_nat rbind]. rewrite (getp _ _ _ _ P). cbn [rbind].
  destruct (first_some es k0 i0 F W) as (e & x & N & I & Nx). destruct (isAsym p0) eqn:K.
  - unfold setAsymProfile. unfold vget. rewrite N. cbn [rbind]. rewrite Nx. cbn [rbind]. unfold line_id in Id. rewrite N, Nx in Id. injection Id as Id. rewrite Id, (Hc eq_refl). cbn [rbind].
    assert (Li : (i0 < List.length (e_lines e))%nat) by (apply (nth_error_len _ _ _ Nx)). rewrite on_line_spec by exact Li. cbn [rbind].
    assert (Lk : (k0 < List.length es)%nat) by (apply (nth_error_len _ _ _ N)).
    destruct (vset_ok es k0 (remap_e (fun j p => if Nat.eqb j i0 then from_catalog f ref else p) e) Lk) as (l & V & Ll & Nl & Ol). rewrite V. cbn [rbind].
    set (g := fun k i (p : profile) => if (Nat.eqb k k0 && Nat.eqb i i0)%bool then chosen f ref else p).
    assert (El : l = remap g es).
    { apply list_nth_eq. intro k. rewrite remap_nth. destruct (Nat.eqb_spec k k0) as [->|Nk].
      - rewrite Nl, N. cbn [option_map]. f_equal. apply remap_e_ext. intros i y _. unfold g. rewrite Nat.eqb_refl. cbn [andb]. rewrite from_catalog_eq. reflexivity.
      - rewrite Ol by auto. destruct (nth_error es k) as [e'|]; [|reflexivity]. cbn [option_map]. f_equal. destruct e' as [l0 a b c]. unfold remap_e, with_lines. cbn [e_lines e_asym e_allout e_out]. f_equal.
        apply list_nth_eq. intro i. rewrite mapi_nth. unfold g. destruct (Nat.eqb_spec k k0); [tauto|]. cbn [andb]. destruct (nth_error l0 i) as [[a' b']|]; reflexivity. }
    rewrite El. rewrite <- E. rewrite <- (igm_shape g es). rewrite symigm_all.
    + f_equal. rewrite remap_remap. apply remap_ext. intros k i p Pp. unfold set_fun, g. destruct (Nat.eqb_spec k k0) as [->|Nk]; cbn [andb]; [|reflexivity]. destruct (Nat.eqb_spec i i0) as [->|Ni]; [|reflexivity].
      cbn [andb]. rewrite P in Pp. injection Pp as <-. rewrite K. reflexivity.
    + apply wf_remap; [exact W|]. intros k i p Pp Nm T. unfold g in T. destruct (Nat.eqb_spec k k0) as [->|Nk]; cbn [andb] in T; [|exact T]. destruct (Nat.eqb_spec i i0) as [->|Ni]; [|exact T].
      exfalso. apply Nm. exists e. auto.
  - cbn [rbind]. rewrite <- E. rewrite symigm_all by exact W. f_equal. apply remap_ext. intros k i p Pp. unfold set_fun. destruct (Nat.eqb_spec k k0) as [->|Nk]; cbn [andb]; [|reflexivity]. destruct (Nat.eqb_spec i i0) as [->|Ni]; [|reflexivity].
    rewrite P in Pp. injection Pp as <-. rewrite K. reflexivity.
Qed.
Lemma set_missing f cont z cat es k0 i0 p0 id e : wf es -> first_marked es k0 i0 -> prof es k0 i0 = Some p0 -> line_id es k0 i0 = Some id ->
  isAsym p0 = true -> at_ cat id = Throw e -> setLyaProfile f cont z cat es = Throw e.
Proof.
  intros W F P Id K Hc. unfold setLyaProfile. destruct (igm_first es k0 i0 F) as (t & r & E). rewrite E. cbn [front_nat rbind]. rewrite (getp _ _ _ _ P). cbn [rbind]. rewrite K.
  destruct (first_some es k0 i0 F W) as (e' & x & N & I & Nx). unfold setAsymProfile. unfold vget. rewrite N. cbn [rbind]. rewrite Nx. cbn [rbind]. unfold line_id in Id. rewrite N, Nx in Id. injection Id as Id. rewrite Id, Hc. reflexivity.
Qed.
Lemma set_none f cont z cat es : no_marked es -> setLyaProfile f cont z cat es = Ok es.
Proof. intro N. unfold setLyaProfile. rewrite (igm_none es N). reflexivity. Qed.
Lemma at_spec cat id : match at_ cat id with Ok p => In (id, p) cat | Throw e => e = STD_out_of_range /\ forall p, ~ In (id, p) cat | UB => False end.
Proof.
  induction cat as [|[i p] t IH]; [cbn; split; [reflexivity|intros p []]|]. cbn [at_]. destruct (Z.eqb_spec i id) as [->|N]; [left; reflexivity|]. destruct (at_ t id); [right; exact IH| |exact IH].
  destruct IH as (E & Nt). split; [exact E|]. intros q [X|X]; [injection X; intros; congruence|apply (Nt q X)].
Qed.

(** ** resetAsymfitParams *)
Lemma reset_kind p : kind (resetParams p) = kind p.
Proof. destruct p as [| | | |n [] c z]; reflexivity. Qed.
Lemma reset_from_spec n : forall k es, wf es -> (k + n <= List.length es)%nat -> reset_from k n es = Ok (remap (fun k' _ p => if (Nat.leb k k' && Nat.ltb k' (k + n))%bool then resetParams p else p) es).
Proof.
  induction n as [|n IH]; intros k es W L.
  - cbn [reset_from]. f_equal. rewrite <- (remap_id es) at 1. apply remap_ext. intros k' i p _. destruct (Nat.leb_spec k k'); cbn [andb]; [|reflexivity]. destruct (Nat.ltb_spec k' (k + 0)); [lia|reflexivity].
  - cbn [reset_from]. rewrite (on_elt_spec _ es k W sp_reset) by lia. cbn [rbind]. rewrite IH.
    + f_equal. rewrite remap_remap. apply remap_ext. intros k' i p _. destruct (Nat.eqb_spec k' k) as [->|N].
      * destruct (Nat.leb_spec (S k) k); [lia|]. cbn [andb]. destruct (Nat.leb_spec k k); [|lia]. destruct (Nat.ltb_spec k (k + S n)); [reflexivity|lia].
      * destruct (Nat.leb_spec (S k) k'), (Nat.leb_spec k k'); try lia; cbn [andb]; [|reflexivity]. destruct (Nat.ltb_spec k' (S k + n)), (Nat.ltb_spec k' (k + S n)); try lia; reflexivity.
    + apply wf_kind; [exact W|]. intros k' i p. destruct (Nat.eqb k' k); [apply reset_kind|reflexivity].
    + rewrite remap_len. lia.
Qed.
Lemma reset_spec es : wf es -> resetAsymfitParams es = Ok (remap (fun _ _ p => resetParams p) es).
Proof.
  intro W. unfold resetAsymfitParams. rewrite reset_from_spec by (auto; lia). f_equal. apply remap_ext. intros k i p P. cbn [Nat.leb andb].
  destruct (Nat.ltb_spec k (0 + List.length es)) as [_|L]; [reflexivity|]. exfalso. unfold prof in P. rewrite (proj2 (nth_error_None es k)) in P by lia. discriminate.
Qed.
