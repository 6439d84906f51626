From Coq Require Import Setoid.
From Verif Require Import Base RangeModel RangeProofs AxisModel AxisProofs CalzModel CalzProofs MeikModel MeikSpec MeikProofs TplModel TplSpec TplProofs TFitModel TFitSpec TFitProofs TFitProofs2 TFitProofs3 TFitProofs4 TFitProofs5.
Open Scope Q_scope.

Definition belowb (os : list obs) : bool :=
  existsb (fun o => existsb (fun k => match nth_error (axis_of o) k with Some lam => Qle_bool lam 1216 | None => false end) (seq (o_ks o) (S (o_ke o) - o_ks o))) os.
Lemma belowb_ok os : belowb os = true <-> below_lya os.
Proof.
  unfold belowb. rewrite existsb_exists. split.
  - intros (o & Io & H). apply existsb_exists in H. destruct H as (k & Ik & H). apply in_seq in Ik. destruct (nth_error (axis_of o) k) as [lam|] eqn:E; [|discriminate]. apply Qle_bool_iff in H. exists o, k, lam. split; [exact Io|]. split; [lia|auto].
  - intros (o & k & lam & Io & Hk & E & L). exists o. split; [exact Io|]. apply existsb_exists. exists k. split; [apply in_seq; lia|]. rewrite E. apply Qle_bool_iff. exact L.
Qed.
Lemma below_begins begins os : Forall fresh os -> Forall2 begins_before begins os -> below_lya os -> igmIsInRange begins = true.
Proof.
  intros Fr F (o & k & lam & Io & Hk & E & L). unfold igmIsInRange. apply existsb_exists.
  assert (X : exists b, In b begins /\ begins_before b o).
  { clear - F Io. induction F as [|b o' begins os B F IH]; [destruct Io|]. destruct Io as [->|Io]; [exists b; split; [left; reflexivity|exact B]|]. destruct (IH Io) as (b' & Ib & Bb). exists b'. split; [right; exact Ib|exact Bb]. }
  destruct X as (b & Ib & Bb). exists b. split; [exact Ib|]. apply Qle_bool_iff. unfold lya. rewrite Forall_forall in Fr. destruct (Fr o Io) as (_ & Inc & Kr).
  destruct (nth_error_lt (axis_of o) (o_ks o)) as [l0 H0]; [lia|]. pose proof (Bb l0 H0) as B0. destruct (Nat.eq_dec (o_ks o) k) as [Ek|Ek].
  - subst k. assert (l0 = lam) by congruence. subst l0. lra.
  - assert (l0 <= lam) by (apply (Inc (o_ks o) k); [lia|exact H0|exact E]). lra.
Qed.

Definition applies (priors : list prior) (cal : option calz) : bool := match priors, cal with [], _ | _, None => false | _, Some c => Z.eqb (Z.of_nat (length priors)) (cz_n c) end.
Lemma applies_ok priors cal : applies priors cal = true <-> priors_used priors cal.
Proof.
  unfold applies, priors_used. destruct priors as [|p l]; [split; [discriminate|intros [H _]; congruence]|]. destruct cal as [c|]; [|split; [discriminate|intros [_ (c & E & _)]; discriminate]].
  rewrite Z.eqb_eq. split; [intro H; split; [congruence|exists c; auto]|]. intros [_ (c' & E & H)]. inversion E; subst. exact H.
Qed.
Lemma prior_at_of priors cal e p : prior_at priors (applies priors cal) e p -> prior_of priors cal e p.
Proof.
  unfold prior_at, prior_of. pose proof (applies_ok priors cal) as A. destruct (applies priors cal).
  - unfold zget. destruct (Z.ltb_spec e 0) as [L|L]; [discriminate|]. intro H. left. split; [apply A; reflexivity|]. split; [exact L|]. apply vget_Ok. exact H.
  - intros ->. right. split; [|reflexivity]. intro U. apply A in U. discriminate.
Qed.

Lemma outs_start (z : Q) cal mei (dl : list Z) os0 (os : list obs) (n : nat) : length dl = n -> length os = length os0 -> Forall2 (outok z cal mei dl 0) os0 (map (fun _ => repeat czero n) os).
Proof.
  intros Ld. revert os. induction os0 as [|o os0 IH]; intros [|o' os] L; try discriminate; cbn [map]; constructor; [|apply IH; cbn in L; lia].
  split; [rewrite repeat_length; congruence|]. intros; lia.
Qed.
Lemma F2_len {A B} (P : A -> B -> Prop) l l' : Forall2 P l l' -> length l = length l'. Proof. induction 1; cbn; congruence. Qed.

Lemma nth_map_inv {A B} (f : A -> B) l i y : nth_error (map f l) i = Some y -> exists x, nth_error l i = Some x /\ y = f x.
Proof. intro H. rewrite nth_error_map in H. destruct (nth_error l i) as [x|]; cbn in H; [inversion H; exists x; auto|discriminate]. Qed.
Lemma nth_combine {A B} : forall (l : list A) (l' : list B) i x y, nth_error l i = Some x -> nth_error l' i = Some y -> nth_error (combine l l') i = Some (x, y).
Proof. induction l as [|a l IH]; intros [|b l'] [|i] x y H H'; try discriminate; cbn in *; [congruence|apply IH; assumption]. Qed.
Lemma nth_combine_inv {A B} : forall (l : list A) (l' : list B) i x y, nth_error (combine l l') i = Some (x, y) -> nth_error l i = Some x /\ nth_error l' i = Some y.
Proof. induction l as [|a l IH]; intros [|b l'] [|i] x y H; try discriminate; cbn in *; [inversion H; auto|apply IH; assumption]. Qed.

Lemma dust_needs_table sqrtf thr fast dust ext cal priors apply e el ml st r : ml <> [] -> igm_loop sqrtf thr fast dust ext cal priors apply (e :: el) ml 0 true [] st = Ok r -> dust = true -> exists c, cal = Some c.
Proof.
  destruct ml as [|m ml]; [congruence|]. intros _ H Ed. subst dust. destruct cal as [c|]; [exists c; reflexivity|]. exfalso. cbn [igm_loop Nat.ltb Nat.leb andb Nat.eqb ism_loop] in H.
  destruct (if ext then _ else _) as [[os sk]| |] in H; discriminate.
Qed.
Lemma ebmv_ok cal dust e : (dust = true -> exists c, cal = Some c) -> ebmv_of cal dust e (ebmv cal dust e).
Proof. intro H. unfold ebmv_of, ebmv. destruct dust; [left|right; auto]. split; [reflexivity|]. destruct (H eq_refl) as [c ->]. exists c. split; reflexivity. Qed.

Lemma Fit_spec sqrtf thr z begins opt_ext dust cal mei priors ml el os b cols :
  os <> [] -> Forall fresh os -> (match mei with Some m => (1 <= mk_fine m)%Z | None => True end) -> Forall2 begins_before begins os -> ((1 < length ml)%nat -> Forall reaches_above os) ->
  BasicFit sqrtf thr z begins opt_ext dust cal mei priors ml el os = Ok (b, cols) ->
  exists eff, fit_tables sqrtf thr z opt_ext dust cal mei priors ml el os b cols eff.
Proof.
  intros Ne Fr Cv Bg Ra H. unfold BasicFit in H. destruct el as [|e0 el0] eqn:Eel; [discriminate|]. rewrite <- Eel in *. assert (NeE : el <> []) by congruence. cbv zeta in H.
  change (match priors, cal with [], _ | _, None => false | _, Some c => Z.eqb (Z.of_nat (length priors)) (cz_n c) end) with (applies priors cal) in H.
  set (fast := Nat.ltb 1 (length ml)) in *. set (ext := (opt_ext && igmIsInRange begins)%bool) in *. set (on := (dust || ext)%bool).
  fold on in H. destruct (if on then init_all z cal mei os else Ok os) as [os1| |] eqn:Ei; try discriminate. cbn [rbind] in H.
  destruct (igm_loop _ _ _ _ _ _ _ _ _ _ _ _ _ _) as [[st cols1]| |] eqn:Il in H; try discriminate. cbn [rbind fst snd] in H.
  destruct (s_best st) as [b1|] eqn:Eb; [|discriminate]. inversion H; subst b1 cols1. clear H.
  assert (I1 : Forall2 (inv z cal mei on (-1) (-1)) os os1).
  { destruct on eqn:On; [apply (init_ok z cal mei true); auto|]. inversion Ei; subst os1. apply noinit_ok; auto. }
  assert (NeM : ml <> []). { intro Em. rewrite Em in Il. cbn [igm_loop] in Il. inversion Il; subst st. discriminate. }
  pose proof (F2_len _ _ _ I1) as Lo.
  set (eff := (opt_ext && belowb os)%bool).
  assert (Eff0 : eff = true <-> opt_ext = true /\ below_lya os). { unfold eff. rewrite andb_true_iff, belowb_ok. reflexivity. }
  assert (Eff : eff = true <-> ext = true /\ below_lya os).
  { rewrite Eff0. unfold ext. rewrite andb_true_iff. split; [intros [A B]|intros [[A _] B]; auto]. split; [|exact B]. split; [exact A|]. apply (below_begins begins os); auto. }
  assert (Don : dust = true -> on = true) by (intros ->; reflexivity). assert (Eon : ext = true -> on = true) by (intro X; unfold on; rewrite X, orb_true_r; reflexivity).
  assert (Ra' : fast = true -> Forall reaches_above os) by (intro X; apply Ra; apply Nat.ltb_lt; exact X).
  assert (Cal : dust = true -> exists c, cal = Some c). { rewrite Eel in Il. exact (dust_needs_table _ _ _ _ _ _ _ _ _ _ _ _ _ NeM Il). }
  assert (Oo : fast = true -> Forall2 (outok z cal mei (dusts dust el) 0) os (s_out (mkSt os1 (map (fun _ => repeat czero (length el)) os1) None))).
  { intros _. cbn [s_out]. apply outs_start; [unfold dusts; apply map_length|symmetry; exact Lo]. }
  assert (Ol : fast = false -> length (s_out (mkSt os1 (map (fun _ => repeat czero (length el)) os1) None)) = length os) by (intros _; cbn [s_out]; rewrite map_length; symmetry; exact Lo).
  destruct (loop_ok sqrtf thr z cal mei on fast dust ext eff priors (applies priors cal) el os Ne Fr Don Eon Ra' Eff ml (mkSt os1 (map (fun _ => repeat czero (length el)) os1) None) st cols (-1)%Z (-1)%Z NeM NeE (fun _ => eq_refl) (fun _ => eq_refl) I1 Oo Ol eq_refl Il)
    as (fss & L1 & L2 & Cols & Best & Errs).
  assert (Col : forall k m, nth_error ml k = Some m -> exists col fs, nth_error cols k = Some col /\ nth_error fss k = Some fs /\ column sqrtf thr z cal mei dust eff priors (applies priors cal) el os (if eff then m else nth 0 ml 0%Z) m col fs /\ (eff = false -> nth_error fss 0 = Some fs)) by exact Cols.
  clear Cols.
  exists eff. split; [exact Eff0|]. split; [exact L1|]. split; [|split].
  - intros k m Hm. destruct (Col k m Hm) as (col & fs & Hc & Hf & (C1 & C2 & C3) & _). exists col. split; [exact Hc|]. split; [exact C1|]. intros i e He. destruct (C3 i e He) as (f & p & Ef & Ep & Ec & Cell).
    exists f, p, (ebmv cal dust e). split; [exact Ec|]. split; [apply ebmv_ok; exact Cal|]. split; [apply prior_at_of; exact Ep|]. exact Cell.
  - set (n := length el) in *.
    assert (Rows : forall r, In r (map (fun q => items cal dust eff el (fst q) (snd q)) (combine ml fss)) -> length r = n).
    { intros r Ir. apply in_map_iff in Ir. destruct Ir as ([m fs] & <- & Iq). apply In_nth_error in Iq. destruct Iq as [k Hk]. apply nth_combine_inv in Hk. destruct Hk as [Hm Hf]. destruct (Col k m Hm) as (col & fs' & _ & Hf' & (_ & C2 & _) & _).
      assert (fs' = fs) by congruence. subst fs'. unfold items. cbn [fst snd]. rewrite map_length, combine_length, C2. apply Nat.min_id. }
    assert (Item : forall k m i e f fs, nth_error ml k = Some m -> nth_error fss k = Some fs -> nth_error el i = Some e -> nth_error fs i = Some f -> nth_error (concat (map (fun q => items cal dust eff el (fst q) (snd q)) (combine ml fss))) (k * n + i) = Some (f, ebmv cal dust e, ki_of eff m)).
    { intros k m i e f fs Hm Hfs He Hf. rewrite (concat_nth n _ k i (items cal dust eff el m fs)); [|exact Rows| |apply nth_error_len in He; exact He].
      - unfold items. apply (map_nth_error (fun q => (fst q, ebmv cal dust (snd q), ki_of eff m)) i (combine fs el) (nth_combine _ _ _ _ _ Hf He)).
      - exact (map_nth_error (fun q => items cal dust eff el (fst q) (snd q)) k _ (nth_combine _ _ _ _ _ Hm Hfs)). }
    assert (FM : exists k m i e f fs, nth_error ml k = Some m /\ nth_error fss k = Some fs /\ nth_error el i = Some e /\ nth_error fs i = Some f /\ b = mkBest f (ebmv cal dust e) (ki_of eff m) /\
      forall k' m' i' e' f' fs', nth_error ml k' = Some m' -> nth_error fss k' = Some fs' -> nth_error el i' = Some e' -> nth_error fs' i' = Some f' -> f_chi2 f <= f_chi2 f' /\ (before k' i' k i -> f_chi2 f < f_chi2 f')).
    { pose proof (firstmin_fold (if eff then concat (map (fun q => items cal dust eff el (fst q) (snd q)) (combine ml fss)) else match ml, fss with m :: _, fs :: _ => items cal dust eff el m fs | _, _ => [] end) [] None eq_refl) as FM.
      cbn [app] in FM. rewrite <- Best in FM. rewrite Eb in FM. cbn [firstmin] in FM. destruct FM as (j & x & Hj & -> & Min). destruct eff.
      - destruct (concat_inv n _ j x Rows Hj) as (k & i & row & -> & Hr & Hi & Li). apply nth_map_inv in Hr. destruct Hr as ([m fs] & Hq & ->). apply nth_combine_inv in Hq. destruct Hq as [Hm Hf]. cbn [fst snd] in Hi. unfold items in Hi. apply nth_map_inv in Hi.
        destruct Hi as ([f e] & Hi & ->). apply nth_combine_inv in Hi. destruct Hi as [Hi He]. exists k, m, i, e, f, fs. cbn [fst snd fit_of]. repeat (split; [assumption||reflexivity|]).
        intros k' m' i' e' f' fs' Hm' Hfs' He' Hf'. destruct (Min _ _ (Item _ _ _ _ _ _ Hm' Hfs' He' Hf')) as [M1 M2]. cbn [fit_of fst] in M1, M2. split; [exact M1|]. intro B. apply M2. unfold before in B. pose proof (nth_error_len _ _ _ He'). fold n in H. nia.
      - destruct ml as [|m ml']; [congruence|]. destruct fss as [|fs fss']; [discriminate|]. unfold items in Hj. apply nth_map_inv in Hj. destruct Hj as ([f e] & Hi & ->). apply nth_combine_inv in Hi. destruct Hi as [Hi He].
        exists O, m, j, e, f, fs. cbn [fst snd fit_of]. repeat (split; [assumption||reflexivity|]). intros k' m' i' e' f' fs' Hm' Hfs' He' Hf'.
        destruct (Col k' m' Hm') as (col & fs1 & _ & Hf1 & _ & Same). assert (fs1 = fs') by congruence. subst fs1. specialize (Same eq_refl). cbn [nth_error] in Same. inversion Same; subst fs'.
        assert (Hj' : nth_error (items cal dust false el m fs) i' = Some (f', ebmv cal dust e', ki_of false m)) by (unfold items; exact (map_nth_error (fun q => (fst q, ebmv cal dust (snd q), ki_of false m)) i' (combine fs el) (nth_combine _ _ _ _ _ Hf' He'))).
        destruct (Min _ _ Hj') as [M1 M2]. cbn [fit_of fst] in M1, M2. split; [exact M1|]. intros [B|[-> B]]; [lia|]. apply M2. exact B. }
    destruct FM as (k & m & i & e & f & fs & Hm & Hfs & He & Hf & -> & Min). destruct (Col k m Hm) as (col & fs1 & Hc & Hf1 & (C1 & C2 & C3) & _). assert (fs1 = fs) by congruence. subst fs1.
    destruct (C3 i e He) as (f1 & p & Ef & Ep & Ec & Cell). assert (f1 = f) by congruence. subst f1.
    exists k, m, i, e, p. cbn [b_fit b_ebmv b_igm]. split; [exact Hm|]. split; [exact He|]. split; [apply prior_at_of; exact Ep|]. split; [exact Cell|]. split; [apply ebmv_ok; exact Cal|]. split; [reflexivity|].
    intros k' i' col' c v g Hc' Hi'. destruct (nth_error_lt ml k') as [m' Hm']; [rewrite <- L1; exact (nth_error_len _ _ _ Hc')|]. destruct (Col k' m' Hm') as (col1 & fs' & Hc1 & Hf' & (D1 & D2 & D3) & _). assert (col1 = col') by congruence. subst col1.
    destruct (nth_error_lt el i') as [e' He']; [pose proof (nth_error_len _ _ _ Hi') as X; rewrite D1 in X; exact X|]. destruct (D3 i' e' He') as (f' & p' & Ef' & _ & Ec' & _). rewrite Ec' in Hi'. inversion Hi'; subst c v g. exact (Min k' m' i' e' f' fs' Hm' Hf' He' Ef').
  - revert Errs. apply Forall_impl. intros o E. unfold no_null_error. intros i w Hi Hw Nw. apply (E i w); [lia|exact Hw|exact Nw].
Qed.
