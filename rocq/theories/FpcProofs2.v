From Coq Require Import String.
From Verif Require Import Base RangeModel RangeProofs MeikModel MeikProofs FpcModel FpcSpec FpcProofs.
Open Scope Q_scope.

Definition kept (cs bs : list ranked) (us : list nat) : Prop :=
  (forall j, In j us <-> exists b, nth_error bs j = Some b /\ new_in cs b) /\
  (forall i j a b, (i < j)%nat -> nth_error us i = Some a -> nth_error us j = Some b -> (a < b)%nat).
Definition joined (p : pass) (rows : list (ranked * option Q * option Q * tplsol)) : pass :=
  mkPass (p_cands p ++ map (fun x => fst (fst (fst x))) rows) (p_tpl p ++ map snd rows) (p_ext p)
    (p_elv p ++ map (fun x => snd (fst (fst x))) rows) (p_alv p ++ map (fun x => snd (fst x)) rows)
    (p_gelv p ++ repeat (repeat None 250) (List.length rows)) (p_galv p ++ repeat (repeat None 250) (List.length rows)).
Lemma combine_eq r p b : whole p -> whole b -> exists us, kept (p_cands p) (p_cands b) us /\
  Combine_firstpass_candidates r p b = (do rows <- mapr (crow r b) us; Ok (joined p rows)).
Proof.
  intros (Rp & Lt & Le & La & Lg & Lh) (Rb & _). destruct (unique_spec (p_cands p) Rp (p_cands b) 0 Rb) as (us & Eu & Hu & Su).
  exists us. split.
  - split; [|exact Su]. intro j. rewrite (Hu j). split.
    + intros (i & x & -> & H). exists x. exact H.
    + intros (x & H). exists j, x. auto.
  - unfold Combine_firstpass_candidates, getUniqueCandidates. rewrite Eu. cbn [rbind]. unfold Resize.
    rewrite !resize_grow by congruence.
    rewrite (combine_loop_eq r b (p_ext p) _ _ (List.length (p_cands p)) us 0) by (rewrite ?repeat_length; congruence || lia).
    destruct (mapr (crow r b) us) as [rows| |] eqn:E; cbn [rbind]; [|reflexivity|reflexivity].
    apply mapr_ok in E. destruct E as (E & _). unfold joined. rewrite E. reflexivity.
Qed.

(** what a row is *)
Lemma crow_cases r b j c : complete r -> whole b -> nth_error (p_cands b) j = Some c -> exists z, at_z c z /\
  ((~ on_grid r z /\ crow r b j = Throw INTERNAL_ERROR) \/
   (exists l t, solution r z l t /\ t_name t = ""%string /\ crow r b j = Throw TPL_NAME_EMPTY) \/
   (exists l t e a, solution r z l t /\ t_name t <> ""%string /\ nth_error (p_elv b) j = Some e /\ nth_error (p_alv b) j = Some a /\ crow r b j = Ok (c, e, a, t))).
Proof.
  intros Hr (Rb & Lt & Le & La & Lg & Lh) Hj. destruct (Rb c) as (z & Hz); [apply nth_error_In in Hj; exact Hj|]. exists z. split; [exact Hz|].
  assert (j < List.length (p_cands b))%nat as Lj by (apply nth_error_Some; congruence).
  destruct (vget_in (p_elv b) j) as (e & He); [lia|]. destruct (vget_in (p_alv b) j) as (a & Ha); [lia|].
  unfold crow. rewrite (proj2 (vget_Ok _ _ _) Hj), He, Ha. cbn [rbind]. rewrite (redshift_at c z Hz). cbn [rbind].
  destruct (on_grid_dec r z) as [G|G].
  - right. destruct (solution_exists r z Hr G) as (l & t & Hs). destruct (solution_index r z l t Hs) as (i & Ei & _ & Et). rewrite Ei. cbn [rbind]. rewrite Et. cbn [rbind].
    destruct (String.eqb_spec (t_name t) "") as [N|N]; [left; exists l, t; auto|right]. apply vget_Ok in He, Ha. exists l, t, e, a. auto 10.
  - left. rewrite (off_grid r z G). auto.
Qed.
Lemma combine_ok r p b : complete r -> whole p -> whole b ->
  (forall c z, In c (p_cands b) -> new_in (p_cands p) c -> at_z c z -> exists l t, solution r z l t /\ t_name t <> ""%string) ->
  exists p' us, Combine_firstpass_candidates r p b = Ok p' /\ kept (p_cands p) (p_cands b) us /\ whole p' /\ p_ext p' = p_ext p /\
    List.length (p_cands p') = (List.length (p_cands p) + List.length us)%nat /\
    (forall i, (i < List.length (p_cands p))%nat -> nth_error (p_cands p') i = nth_error (p_cands p) i /\ nth_error (p_tpl p') i = nth_error (p_tpl p) i /\
       nth_error (p_elv p') i = nth_error (p_elv p) i /\ nth_error (p_alv p') i = nth_error (p_alv p) i /\ nth_error (p_gelv p') i = nth_error (p_gelv p) i /\ nth_error (p_galv p') i = nth_error (p_galv p) i) /\
    (forall m j, nth_error us m = Some j -> let i := (List.length (p_cands p) + m)%nat in
       nth_error (p_cands p') i = nth_error (p_cands b) j /\ nth_error (p_elv p') i = nth_error (p_elv b) j /\ nth_error (p_alv p') i = nth_error (p_alv b) j /\
       (forall c z l t, nth_error (p_cands b) j = Some c -> at_z c z -> solution r z l t -> nth_error (p_tpl p') i = Some t)).
Proof.
  intros Hr Hp Hb Hk. destruct (combine_eq r p b Hp Hb) as (us & Ku & E). rewrite E. clear E. pose proof Ku as (Hu & _).
  assert (Hrow : forall j, In j us -> exists c z l t e a, nth_error (p_cands b) j = Some c /\ at_z c z /\ solution r z l t /\ nth_error (p_elv b) j = Some e /\ nth_error (p_alv b) j = Some a /\ crow r b j = Ok (c, e, a, t)).
  { intros j Hj. apply Hu in Hj. destruct Hj as (c & Hc & Hn). destruct (crow_cases r b j c Hr Hb Hc) as (z & Hz & Cs).
    destruct (Hk c z (nth_error_In _ _ Hc) Hn Hz) as (l & t & Hs & Ht). destruct Cs as [(G & _)|[(l' & t' & Hs' & N & _)|(l' & t' & e & a & Hs' & _ & He & Ha & Ec)]].
    - exfalso. apply G. destruct Hs as (i & x & Hx & Hxz & _). exists x. split; [apply nth_error_In in Hx; exact Hx|exact Hxz].
    - exfalso. destruct (solution_fun r z _ _ _ _ Hs Hs') as (_ & ->). contradiction.
    - exists c, z, l', t', e, a. auto 10. }
  destruct (mapr_total (crow r b) us) as (rows & Er).
  { intros j Hj. destruct (Hrow j Hj) as (c & z & l & t & e & a & _ & _ & _ & _ & _ & Ec). eexists; exact Ec. }
  rewrite Er. cbn [rbind]. exists (joined p rows), us. split; [reflexivity|]. split; [exact Ku|]. apply mapr_ok in Er. destruct Er as (Lr & Gr).
  destruct Hp as (Rp & Lt & Le & La & Lg & Lh). unfold joined. cbn [p_elv p_cands p_tpl p_ext p_alv p_gelv p_galv].
  assert (Hc : forall m j, nth_error us m = Some j -> exists c z l t e a, nth_error rows m = Some (c, e, a, t) /\ nth_error (p_cands b) j = Some c /\ at_z c z /\ solution r z l t /\ nth_error (p_elv b) j = Some e /\ nth_error (p_alv b) j = Some a).
  { intros m j Hm. destruct (Gr m j Hm) as (y & Ey & Hy). destruct (Hrow j (nth_error_In _ _ Hm)) as (c & z & l & t & e & a & H1 & H2 & H3 & H4 & H5 & H6). exists c, z, l, t, e, a. split; [congruence|]. auto 10. }
  split; [|split; [reflexivity|split; [rewrite app_length, map_length; lia|split]]].
  - unfold whole. cbn [p_elv p_cands p_tpl p_ext p_alv p_gelv p_galv]. rewrite !app_length, !map_length, !repeat_length. split; [|lia].
    intros c Hi. apply in_app_or in Hi. destruct Hi as [Hi|Hi]; [apply Rp; exact Hi|]. apply in_map_iff in Hi. destruct Hi as (x & <- & Hx).
    apply In_nth_error in Hx. destruct Hx as (m & Hm). destruct (nth_error us m) as [j|] eqn:Ej.
    + destruct (Hc m j Ej) as (c & z & l & t & e & a & H1 & _ & Hz & _). exists z. rewrite H1 in Hm. inversion Hm; subst x. exact Hz.
    + exfalso. apply nth_error_None in Ej. assert (m < List.length rows)%nat by (apply nth_error_Some; congruence). lia.
  - intros i Hi. repeat split; apply nth_error_app1; lia.
  - intros m j Hm. cbv zeta. destruct (Hc m j Hm) as (c & z & l & t & e & a & H1 & H2 & H3 & H4 & H5 & H6).
    rewrite !nth_error_app2 by lia. replace (List.length (p_cands p) + m - List.length (p_cands p))%nat with m by lia.
    replace (List.length (p_cands p) + m - List.length (p_elv p))%nat with m by lia.
    replace (List.length (p_cands p) + m - List.length (p_alv p))%nat with m by lia.
    replace (List.length (p_cands p) + m - List.length (p_tpl p))%nat with m by lia.
    rewrite !(map_nth_error _ _ _ H1). cbn [fst snd]. rewrite H2, H5, H6. repeat (split; [reflexivity|]).
    intros c' z' l' t' Ec Hz' Hs'. inversion Ec; subst c'. rewrite (at_z_fun c z' z Hz' H3) in Hs'. destruct (solution_fun r z _ _ _ _ H4 Hs') as (_ & ->). reflexivity.
Qed.
Lemma mapr_throw {A B} (f : A -> res B) e : forall l, mapr f l = Throw e -> exists x, In x l /\ f x = Throw e.
Proof.
  induction l as [|a t IH]; cbn [mapr]; [discriminate|]. destruct (f a) as [y|e'|] eqn:Ea; cbn [rbind]; [|intro H; inversion H; subst; exists a; split; [left; reflexivity|exact Ea]|discriminate].
  destruct (mapr f t) as [r|e'|]; cbn [rbind]; [discriminate| |discriminate]. intro H. inversion H; subst e'. destruct (IH eq_refl) as (x & Hx & Ex). exists x. split; [right; exact Hx|exact Ex].
Qed.
Lemma mapr_ub {A B} (f : A -> res B) : forall l, mapr f l = UB -> exists x, In x l /\ f x = UB.
Proof.
  induction l as [|a t IH]; cbn [mapr]; [discriminate|]. destruct (f a) as [y|e'|] eqn:Ea; cbn [rbind]; [|discriminate|intro H; exists a; split; [left; reflexivity|exact Ea]].
  destruct (mapr f t) as [r|e'|]; cbn [rbind]; [discriminate|discriminate|]. intros _. destruct (IH eq_refl) as (x & Hx & Ex). exists x. split; [right; exact Hx|exact Ex].
Qed.
(** the only failures *)
Lemma combine_fails r p b : complete r -> whole p -> whole b ->
  match Combine_firstpass_candidates r p b with
  | Ok _ => True
  | UB => False
  | Throw e => exists c z, In c (p_cands b) /\ new_in (p_cands p) c /\ at_z c z /\
      ((e = INTERNAL_ERROR /\ ~ on_grid r z) \/ (e = TPL_NAME_EMPTY /\ exists l t, solution r z l t /\ t_name t = ""%string))
  end.
Proof.
  intros Hr Hp Hb. destruct (combine_eq r p b Hp Hb) as (us & (Hu & _) & E). rewrite E.
  destruct (mapr (crow r b) us) as [rows|e|] eqn:M; cbn [rbind]; [exact I| |].
  - apply mapr_throw in M. destruct M as (j & Hj & Ej). apply Hu in Hj. destruct Hj as (c & Hc & Hn). destruct (crow_cases r b j c Hr Hb Hc) as (z & Hz & Cs).
    exists c, z. split; [exact (nth_error_In _ _ Hc)|]. split; [exact Hn|]. split; [exact Hz|].
    destruct Cs as [(G & Ec)|[(l & t & Hs & N & Ec)|(l & t & e' & a & _ & _ & _ & _ & Ec)]].
    + left. split; [congruence|exact G].
    + right. split; [congruence|]. exists l, t. auto.
    + congruence.
  - apply mapr_ub in M. destruct M as (j & Hj & Ej). apply Hu in Hj. destruct Hj as (c & Hc & Hn). destruct (crow_cases r b j c Hr Hb Hc) as (z & Hz & Cs).
    destruct Cs as [(G & Ec)|[(l & t & Hs & N & Ec)|(l & t & e' & a & _ & _ & _ & _ & Ec)]]; congruence.
Qed.
Lemma combine_ok_any r p b p' : whole p -> whole b -> Combine_firstpass_candidates r p b = Ok p' ->
  exists us rows, kept (p_cands p) (p_cands b) us /\ mapr (crow r b) us = Ok rows /\ p' = joined p rows /\
    (forall m j, nth_error us m = Some j -> exists x, nth_error rows m = Some x /\ nth_error (p_cands b) j = Some (fst (fst (fst x)))).
Proof.
  intros Hp Hb E. destruct (combine_eq r p b Hp Hb) as (us & Ku & E'). rewrite E' in E. destruct (mapr (crow r b) us) as [rows| |] eqn:M; cbn [rbind] in E; [|discriminate|discriminate].
  inversion E; subst p'. exists us, rows. split; [exact Ku|]. split; [exact M|]. split; [reflexivity|]. apply mapr_ok in M. destruct M as (_ & G).
  intros m j Hm. destruct (G m j Hm) as (x & Hx & Ex). exists x. split; [exact Hx|]. unfold crow in Ex. destruct (vget (p_cands b) j) as [c| |] eqn:Ec; cbn [rbind] in Ex; [|discriminate|discriminate].
  apply vget_Ok in Ec. rewrite Ec. f_equal.
  destruct (vget (p_elv b) j); cbn [rbind] in Ex; [|discriminate|discriminate]. destruct (vget (p_alv b) j); cbn [rbind] in Ex; [|discriminate|discriminate].
  destruct (redshift c); cbn [rbind] in Ex; [|discriminate|discriminate]. destruct (getIndex _ _); cbn [rbind] in Ex; [|discriminate|discriminate].
  destruct (vget _ _); cbn [rbind] in Ex; [|discriminate|discriminate]. destruct (String.eqb _ _); [discriminate|]. inversion Ex. reflexivity.
Qed.
Lemma near_refl z : near z z.
Proof. unfold near. setoid_replace (z - z) with 0 by ring. reflexivity. Qed.
Lemma new_dec cs b : real cs -> (exists z, at_z b z) -> new_in cs b \/ exists c z zb, In c cs /\ at_z c z /\ at_z b zb /\ near zb z.
Proof.
  intros R (zb & Hb). destruct (duplicate_spec zb cs R) as (d & Ed & Hd). destruct d.
  - right. destruct (proj1 Hd eq_refl) as (c & z & Hc & Hz & Hn). exists c, z, zb. auto.
  - left. apply (duplicate_new zb b cs false R Hb Ed). reflexivity.
Qed.
(** no redshift of either pass is lost, nothing else is added, the order is kept *)
Lemma combine_covers r p b p' : whole p -> whole b -> Combine_firstpass_candidates r p b = Ok p' ->
  whole p' /\ (exists added, p_cands p' = (p_cands p ++ added)%list /\ (forall c, In c added <-> In c (p_cands b) /\ new_in (p_cands p) c)) /\
  (forall c z, In c (p_cands p) \/ In c (p_cands b) -> at_z c z -> exists c' z', In c' (p_cands p') /\ at_z c' z' /\ near z z').
Proof.
  intros Hp Hb E. destruct (combine_ok_any r p b p' Hp Hb E) as (us & rows & (Hu & Su) & M & -> & G). apply mapr_ok in M. destruct M as (Lr & _).
  assert (Ha : forall c, In c (map (fun x => fst (fst (fst x))) rows) <-> In c (p_cands b) /\ new_in (p_cands p) c).
  { intro c. split.
    - intro H. apply in_map_iff in H. destruct H as (x & <- & Hx). apply In_nth_error in Hx. destruct Hx as (m & Hm).
      destruct (nth_error us m) as [j|] eqn:Ej; [|exfalso; apply nth_error_None in Ej; assert (m < List.length rows)%nat by (apply nth_error_Some; congruence); lia].
      destruct (G m j Ej) as (x' & Hx' & Hc). assert (x' = x) by congruence. subst x'. apply nth_error_In in Ej. apply Hu in Ej. destruct Ej as (c & Hc' & Hn).
      assert (c = fst (fst (fst x))) by congruence. subst c. split; [apply nth_error_In in Hc; exact Hc|exact Hn].
    - intros (Hc & Hn). apply In_nth_error in Hc. destruct Hc as (j & Hj). assert (In j us) as Hi by (apply Hu; exists c; auto). apply In_nth_error in Hi. destruct Hi as (m & Hm).
      destruct (G m j Hm) as (x & Hx & Hc). apply in_map_iff. exists x. split; [congruence|]. apply nth_error_In in Hx. exact Hx. }
  split; [|split].
  - destruct Hp as (Rp & Lt & Le & La & Lg & Lh). unfold whole, joined. cbn [p_elv p_cands p_tpl p_ext p_alv p_gelv p_galv]. rewrite !app_length, !map_length, !repeat_length. split; [|lia].
    intros c Hi. apply in_app_or in Hi. destruct Hi as [Hi|Hi]; [apply Rp; exact Hi|]. apply Ha in Hi. destruct Hb as (Rb & _). apply Rb. tauto.
  - eexists. split; [reflexivity|]. exact Ha.
  - intros c z Hc Hz. unfold joined. cbn [p_cands]. destruct Hc as [Hc|Hc].
    + exists c, z. split; [apply in_or_app; left; exact Hc|]. split; [exact Hz|apply near_refl].
    + destruct (new_dec (p_cands p) c) as [N|(c' & z' & zb & Hc' & Hz' & Hzb & N)]; [apply Hp|exists z; exact Hz| |].
      * exists c, z. split; [apply in_or_app; right; apply Ha; auto|]. split; [exact Hz|apply near_refl].
      * exists c', z'. split; [apply in_or_app; left; exact Hc'|]. split; [exact Hz'|]. rewrite (at_z_fun c z zb Hz Hzb). exact N.
Qed.
(** a second time nothing is added *)
Lemma joined_nil p : joined p [] = p.
Proof. unfold joined. destruct p. cbn. rewrite !app_nil_r. reflexivity. Qed.
Lemma combine_twice r p b p' : whole p -> whole b -> Combine_firstpass_candidates r p b = Ok p' -> Combine_firstpass_candidates r p' b = Ok p'.
Proof.
  intros Hp Hb E. destruct (combine_covers r p b p' Hp Hb E) as (Hp' & _ & Cov). destruct (combine_eq r p' b Hp' Hb) as (us & (Hu & _) & E'). rewrite E'.
  assert (us = []) as ->.
  { destruct us as [|j us]; [reflexivity|]. exfalso. destruct (proj1 (Hu j) (or_introl eq_refl)) as (c & Hc & N). destruct (proj1 Hb c (nth_error_In _ _ Hc)) as (z & Hz).
    destruct (Cov c z (or_intror (nth_error_In _ _ Hc)) Hz) as (c' & z' & Hc' & Hz' & Hn). exact (N c' z' z Hc' Hz' Hz Hn). }
  cbn [mapr rbind]. rewrite joined_nil. reflexivity.
Qed.

(** ** buildFirstPassExtremaResults *)
Lemma build_ok r : complete r -> forall cs, real cs -> (forall c z, In c cs -> at_z c z -> on_grid r z) ->
  exists xs, buildFirstPassExtremaResults r cs = Ok xs /\ List.length xs = List.length cs /\
    forall i id c l t, nth_error cs i = Some (id, Some c) -> solution r (c_z c) l t ->
      exists x, nth_error xs i = Some x /\ x_id x = id /\ x_cand x = c /\ x_elv x = l_elv l /\ x_alv x = l_alv l /\ x_lines x = l /\
        t_amp (x_tpl x) = t_amp t /\ t_rest (x_tpl x) = t_rest t /\
        ((exists a, t_amp t = Some a /\ a == 0) -> t_name (x_tpl x) = "noContinuum"%string) /\
        (~ (exists a, t_amp t = Some a /\ a == 0) -> t_name (x_tpl x) = t_name t).
Proof.
  intro Hr. induction cs as [|(id, o) cs IH]; intros R G.
  - exists []. split; [reflexivity|]. split; [reflexivity|]. intros i id c l t H. destruct i; discriminate.
  - destruct (R (id, o) (or_introl eq_refl)) as (z & c & Ho & Hz). cbn [snd] in Ho. subst o.
    destruct IH as (xs & Ex & Lx & Hx); [intros x Hx; apply R; right; exact Hx|intros x y Hx; apply G; right; exact Hx|].
    destruct (solution_exists r (c_z c) Hr) as (l & t & Hs). { apply (G (id, Some c)); [left; reflexivity|]. exists c. auto. }
    destruct (solution_index r _ l t Hs) as (k & Ek & El & Et). cbn [buildFirstPassExtremaResults rbind]. rewrite Ek. cbn [rbind]. rewrite El. cbn [rbind]. rewrite Et. cbn [rbind]. rewrite Ex. cbn [rbind].
    eexists. split; [reflexivity|]. split; [cbn [List.length]; lia|]. intros i id' c' l' t' Hi Hs'. destruct i as [|i]; cbn [nth_error] in Hi.
    + inversion Hi; subst id' c'. destruct (solution_fun r _ _ _ _ _ Hs Hs') as (<- & <-). eexists. split; [reflexivity|]. cbn [x_id x_cand x_elv x_alv x_lines x_tpl].
      repeat (split; [reflexivity|]). unfold updateFromContinuumModelSolution. destruct (t_amp t) as [a|] eqn:Ea.
      * destruct (Qeq_bool_spec a 0) as [Z|Z]; cbn [t_amp t_rest t_name]; repeat (split; [auto|]).
        -- intros N. exfalso. apply N. exists a. auto.
        -- intros (a' & Ha & Z'). exfalso. apply Z. congruence.
        -- auto.
      * repeat (split; [auto|]); [|auto]. intros (a' & Ha & _). discriminate.
    + exact (Hx i id' c' l' t' Hi Hs').
Qed.
