(** C90: registration, passes, conversions; concrete cases. *)
From Coq Require Import String Sorting.Sorted.
From Verif Require Import Base RangeModel RangeProofs F64 RatSpec LyaModel LyaSpec LyaProofs LyaProofs2 LyaProofs3 LyaProofs4.
Open Scope Q_scope.

Lemma asym_indices_spec l : forall n i, In i (asym_indices n l) <-> exists x, (n <= i)%nat /\ nth_error l (i - n) = Some x /\ (isAsym (snd x) || isSymIgm (snd x))%bool = true.
Proof.
  induction l as [|x t IH]; intros n i.
  - split; [intros []|]. intros (x & _ & N & _). destruct (i - n)%nat; discriminate.
  - assert (G : In i (asym_indices (S n) t) <-> exists y, (S n <= i)%nat /\ nth_error (x :: t) (i - n) = Some y /\ (isAsym (snd y) || isSymIgm (snd y))%bool = true).
    { rewrite IH. split; intros (y & L & N & T); exists y; (split; [exact L|]); replace (i - n)%nat with (S (i - S n)) in * by lia; cbn [nth_error] in *; auto. }
    cbn [asym_indices]. destruct (isAsym (snd x) || isSymIgm (snd x))%bool eqn:K.
    + cbn [In]. rewrite G. split.
      * intros [<-|(y & L & N & T)]; [exists x; rewrite Nat.sub_diag; auto|exists y; split; [lia|auto]].
      * intros (y & L & N & T). destruct (Nat.eq_dec n i) as [E|E]; [left; exact E|right; exists y; split; [lia|auto]].
    + rewrite G. split; intros (y & L & N & T); exists y.
      * split; [lia|auto].
      * destruct (Nat.eq_dec n i) as [E|E]; [subst i; rewrite Nat.sub_diag in N; cbn in N; injection N as <-; congruence|split; [lia|auto]].
Qed.
Lemma asym_indices_nodup l : forall n, NoDup (asym_indices n l).
Proof.
  induction l as [|x t IH]; intro n; [constructor|]. cbn [asym_indices]. destruct (isAsym (snd x) || isSymIgm (snd x))%bool; [|apply IH]. constructor; [|apply IH].
  intro I. apply asym_indices_spec in I. destruct I as (y & L & _). lia.
Qed.
Lemma new_wf l allout out : wf_elt (new_elt l allout out) /\
  forall i x, nth_error l i = Some x -> (In i (e_asym (new_elt l allout out)) <-> (isAsym (snd x) || isSymIgm (snd x))%bool = true).
Proof.
  assert (H : forall i, In i (asym_indices 0 l) <-> exists x, nth_error l i = Some x /\ (isAsym (snd x) || isSymIgm (snd x))%bool = true).
  { intro i. rewrite asym_indices_spec, Nat.sub_0_r. split; intros (x & X); exists x; [tauto|split; [lia|exact X]]. }
  split.
  - unfold wf_elt, new_elt. cbn [e_asym e_lines]. split; [apply asym_indices_nodup|]. split.
    + intros i I. apply H in I. destruct I as (x & N & _). apply (nth_error_len _ _ _ N).
    + intros i x N T. apply H. exists x. auto.
  - intros i x N. cbn [new_elt e_asym]. rewrite H. split; [intros (y & N' & T); congruence|intro T; exists x; auto].
Qed.
Lemma prepare_total_wf f cont z cat es es' : wf es -> setLyaProfile f cont z cat es = Ok es' -> wf es' /\ same_shape es es'.
Proof.
  intros W E. destruct (igm_dec es) as [N|(k0 & i0 & F)].
  - rewrite (set_none _ _ _ _ _ N) in E. injection E as <-. split; [exact W|]. rewrite <- (remap_id es) at 2. apply remap_shape.
  - destruct (first_some es k0 i0 F W) as (e & x & Ne & I & Nx).
    assert (P : prof es k0 i0 = Some (snd x)) by (unfold prof; rewrite Ne, Nx; reflexivity). assert (Id : line_id es k0 i0 = Some (fst x)) by (unfold line_id; rewrite Ne, Nx; reflexivity).
    destruct (isAsym (snd x)) eqn:K; [destruct (at_ cat (fst x)) as [d|er|] eqn:R|].
    2:{ rewrite (set_missing f cont z cat es k0 i0 _ _ er W F P Id K R) in E. discriminate. }
    2:{ pose proof (at_spec cat (fst x)) as X. rewrite R in X. destruct X. }
    1: rewrite (set_spec f cont z cat es k0 i0 _ _ d W F P Id) in E by auto.
    2: rewrite (set_spec f cont z cat es k0 i0 _ _ (Sym 0) W F P Id) in E by (intro; congruence).
    all: injection E as <-; split; [|apply remap_shape]; apply wf_remap; [exact W|]; intros k i p Pp Nmk T; unfold set_fun in T;
      destruct (Nat.eqb_spec k k0) as [->|]; [destruct (Nat.eqb_spec i i0) as [->|]|]; cbn [andb] in T;
      [exfalso; apply Nmk; exists e; auto| |]; destruct (kind_flags _ _ (igm_of_kind cont z p)) as (K1 & K2 & _); rewrite K1, K2 in T; exact T.
Qed.
Lemma pass1_spec f ref : isAsymFit (chosen (setPassMode 1 f) ref) = false /\ (isAsym ref = false -> chosen (setPassMode 1 f) ref = ref).
Proof. split; destruct ref; cbn; try reflexivity; discriminate. Qed.
Lemma pass3_spec f ref : (isAsymFit ref = true -> chosen (setPassMode 3 f) ref = ref).
Proof. destruct ref; cbn; auto; discriminate. Qed.
Lemma pass2_spec f n a c : chosen (setPassMode 2 f) (Fit n a c) = (if f_optdisable f then Fixed n a c else Fit n a c) /\
  chosen (setPassMode 2 f) (Fixed n a c) = (if f_optforce f then Fit n a c else Fixed n a c).
Proof. split; reflexivity. Qed.
Lemma conversion_spec p : isAsym p = true -> GetAsymParams (cloneToASYM p) = GetAsymParams p /\ GetAsymParams (cloneToASYMFIT p) = GetAsymParams p /\
  GetNSigmaSupport (cloneToASYM p) = GetNSigmaSupport p /\ GetNSigmaSupport (cloneToASYMFIT p) = GetNSigmaSupport p /\
  isAsymFit (cloneToASYM p) = false /\ isAsymFit (cloneToASYMFIT p) = true /\ cloneToASYM (cloneToASYMFIT p) = cloneToASYM p.
Proof. destruct p; intro H; try discriminate; repeat split. Qed.

(** ** concrete cases *)
Definition ax : asym := mkA 4 1 3.
Definition off : flags := mkFl false false false false.
(** a spectrum with one element of two lines (an asymmetric one and an absorbed one) and one with an asymmetric line *)
Definition esx : list elt := [new_elt [(7, Sym 8)] false [false]; new_elt [(1, Fixed 8 ax "mean"); (2, Igm 8 false 5 None)] false [false; false];
  new_elt [(3, Fixed 8 ax "none")] false [false]]%Z.
Definition catx : list (Z * profile) := [(1, Fit 9 ax "mode"); (2, Igm 9 false 0 None); (3, Fit 9 ax "mode")]%Z.
(** the fitted amplitude is 1 - (sigma - 2)^2 (positive for sigma in ]1, 3[) and the residual is (sigma - 2)^2 + (alpha - 1)^2 + (delta - 0)^2 of element 1, plus (curve - 1)^2 *)
Definition rmsx (es : list elt) : Z :=
  match prof es 1 0, prof es 1 1 with
  | Some (Fit _ a _), Some (Igm _ _ c _) => Qnum (Qred ((a_sigma a - 2) * (a_sigma a - 2) + (a_alpha a - 1) * (a_alpha a - 1) + a_delta a * a_delta a)) + (c - 1) * (c - 1)
  | _, Some (Igm _ _ c _) => (c - 1) * (c - 1)
  | _, _ => 0
  end%Z.
Definition envx (n : nat) (amp : Q) : env := mkEnv (fun k e i => Some amp) (fun es ks => Fin (inject_Z (rmsx es))) n (mkLim 1 3 1) (mkLim 0 2 1) (mkLim 0 1 1).
Definition showp (p : profile) : Z * Z * Z * Z :=
  (match p with
   | Sym _ => (0, 0, 0, 0) | Lor _ => (1, 0, 0, 0)
   | Fixed _ a _ => (2, Qnum (Qred (a_sigma a)), Qnum (Qred (a_alpha a)), Qnum (Qred (a_delta a)))
   | Fit _ a _ => (3, Qnum (Qred (a_sigma a)), Qnum (Qred (a_alpha a)), Qnum (Qred (a_delta a)))
   | Igm _ f c z => (4, if f then 1 else 0, c, match z with Some q => Qnum (Qred q) | None => -1 end) end)%Z.
Definition showe (r : res (list elt)) : option (list (list (Z * Z * Z * Z))) := match r with Ok es => Some (map (fun e => map (fun x => showp (snd x)) (e_lines e)) es) | _ => None end.
Lemma ex_set : showe (setLyaProfile off None 6 catx esx) = Some [[(0, 0, 0, 0)]; [(3, 4, 1, 3); (4, 1, 5, -1)]; [(2, 4, 1, 3)]]%Z /\
  showe (setLyaProfile (setPassMode 1 off) (Some 2%Z) 6 catx esx) = Some [[(0, 0, 0, 0)]; [(2, 4, 1, 3); (4, 0, 2, 6)]; [(2, 4, 1, 3)]]%Z.
Proof. split; vm_compute; reflexivity. Qed.
Lemma ex_prepare : showe (prepare (envx 3 1) off None 6 catx esx) = Some [[(0, 0, 0, 0)]; [(3, 2, 1, 0); (4, 1, 1, 6)]; [(2, 4, 1, 3)]]%Z /\
  showe (prepare (envx 3 (-1)) off None 6 catx esx) = Some [[(0, 0, 0, 0)]; [(3, 2, 2, 0); (4, 1, -1, 6)]; [(2, 4, 1, 3)]]%Z.
Proof. split; vm_compute; reflexivity. Qed.
(** the line is symmetric in this catalogue *)
Definition catsym : list (Z * profile) := [(1, Sym 9)]%Z.
Lemma ex_sticky : showe (do es <- setLyaProfile off None 6 catsym esx; setLyaProfile off None 6 catx es) = Some [[(0, 0, 0, 0)]; [(0, 0, 0, 0); (4, 1, 5, -1)]; [(2, 4, 1, 3)]]%Z.
Proof. vm_compute. reflexivity. Qed.
Definition showq (r : res (list Q)) : option (list (Z * BinNums.positive)) := match r with Ok l => Some (map (fun q => let q := Qred q in (Qnum q, Qden q)) l) | _ => None end.
Lemma ex_grid : showq (steps (mkLim 0 1 (3 # 5))) = Some [(0%Z, 1%positive); (3%Z, 5%positive); (6%Z, 5%positive)].
Proof. vm_compute. reflexivity. Qed.
Lemma ex_default : showq (steps (mkLim 3 5 1)) = Some [(3%Z, 1%positive); (4%Z, 1%positive); (5%Z, 1%positive)] /\
  showe (prepare (mkEnv (fun _ _ _ => Some 0) (fun _ _ => Fin 1) 0 (mkLim 3 5 1) (mkLim 3 5 1) (mkLim 1 2 1)) off None 6 catx esx) =
  Some [[(0, 0, 0, 0)]; [(3, 2, 2, 0); (4, 1, -1, 6)]; [(2, 4, 1, 3)]]%Z.
Proof. split; vm_compute; reflexivity. Qed.
Lemma esx_wf : wf esx.
Proof. intros e I. cbn [esx In] in I. destruct I as [<-|[<-|[<-|[]]]]; apply new_wf. Qed.
Lemma esx_first : first_marked esx 1 0.
Proof. split; [eexists; eexists; split; reflexivity|]. intros [|j] e L N; [cbn in N; injection N as <-; reflexivity|lia]. Qed.
Lemma esx_similar : similar esx (remap (fun _ _ p => match p with Igm n _ _ _ => Igm n true 2 (Some 4) | Fixed n a c => if String.eqb c "mean" then Fit 3 (mkA 0 0 0) "none" else p | _ => p end) esx).
Proof.
  split; [apply remap_shape|]. intros k i p q P Q. rewrite remap_prof, P in Q. cbn [option_map] in Q. injection Q as <-. split.
  - intros F A. destruct p; cbn in *; try discriminate; try destruct (String.eqb _ _); reflexivity.
  - intro H. destruct (Nat.eq_dec k 1) as [->|Nk].
    + destruct i as [|[|i]]; [cbn in P; injection P as <-; exfalso; apply H; split; [apply esx_first|reflexivity]|cbn in P; injection P as <-; reflexivity|cbn in P; destruct i; discriminate].
    + destruct k as [|[|[|k]]]; [|congruence| |]; cbn in P; try (destruct k; discriminate); destruct i as [|i]; try (destruct i; discriminate); try discriminate; cbn in P; injection P as <-; cbn; auto; try lia.
Qed.
