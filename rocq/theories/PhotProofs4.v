From Coq Require Import String Reals Qreals.
From Verif Require Import Base F64 SortLib RangeModel RangeSpec RangeProofs CalzModel MeikModel MeikProofs TplModel TplSpec TplProofs TFitModel TFitSpec TFitProofs TFitProofs2 DetModel PhotModel PhotSpec PhotProofs PhotProofs2.
Open Scope Q_scope.

Lemma init_ready z cal mei b t : b_lam b <> [] -> initialised z cal mei b t -> ready z b t.
Proof.
  intros Ne (fl & t0 & N & H). unfold NewTpl in N. destruct (Nat.eqb_spec (List.length (map (fun l => l / (1 + z)) (b_lam b))) (List.length fl)) as [L|L]; [|discriminate]. cbn [negb] in N. inversion N; subst t0. clear N.
  unfold InitIsmIgmConfig_all, InitIsmIgmConfig in H. cbn [t_axis t_flux t_no t_zi t_cd t_cm t_cal t_mei with_tables] in H.
  assert (H' : exists zi ie, GetIgmEndIndex (map (fun l => l / (1 + z)) (b_lam b)) 0 (Z.of_nat (List.length (map (fun l => l / (1 + z)) (b_lam b))) - 1) = Ok ie /\
     init_end (mkTpl (map (fun l => l / (1 + z)) (b_lam b)) fl [] (-1) (-1) zi 0 (Z.of_nat (List.length (map (fun l => l / (1 + z)) (b_lam b))) - 1) ie [] [] (match cal with Some _ => cal | None => None end) (Some mei)) = (t, Ok tt)).
  { destruct cal as [c|]; (destruct ((0 <? 0) || _)%Z%bool in H; [discriminate|]; destruct (_ || _)%Z%bool in H; [discriminate|]; destruct (MeikModel.getRedshiftIndex mei z) as [zi| |]; try discriminate;
      destruct (GetIgmEndIndex _ _ _) as [ie| |] eqn:E; try discriminate; destruct (_ && _)%bool in H; [discriminate|]; exists zi, ie; split; [reflexivity|exact H]). }
  destruct H' as (zi & ie & E & I0). unfold init_end, enabled in I0. cbn [t_no List.length Nat.eqb negb] in I0. inversion I0; subst t. unfold ready, tpl_igm_end, enabled. cbn [t_axis t_ie t_no t_mei t_flux with_cd with_cm with_no].
  split; [reflexivity|]. split; [|exact E]. rewrite <- L, map_length. destruct (b_lam b); [contradiction|reflexivity].
Qed.
Lemma Igm_end' cat tpls z cal mei : ordered cat -> ordered tpls -> - (1) < z -> (forall n b, bound cat n b -> exists tr la, NewBand tr la = Ok b /\ increasing la) ->
  (forall n b, bound cat n b -> exists t, bound tpls n t /\ initialised z cal mei b t) ->
  exists e, BandIgmEnd tpls (GetNameListSortedByLambda cat) = Ok e /\ (e <= List.length (GetNameListSortedByLambda cat))%nat /\
    forall i n b, nth_error (GetNameListSortedByLambda cat) i = Some n -> bound cat n b -> ((i < e)%nat <-> b_min b <= 1216 * (1 + z)).
Proof.
  intros Oc Ot Z NB Rd. apply Igm_end; auto. intros n b Hb. destruct (Rd n b Hb) as (t & Bt & It). exists t. split; [exact Bt|]. apply (init_ready z cal mei); [|exact It]. destruct (NB n b Hb) as (tr & la & Eb & _). destruct (NewBand_inv _ _ _ Eb) as (_ & Ne & _ & El & _). rewrite El. exact Ne.
Qed.
Lemma igm_one v k lam m : 1216 < lam -> igm_of v k lam m -> m = 1.
Proof. intros L [(_ & _ & mei & _ & H)|[_ H]]; [|exact H]. destruct (Corr_above mei (v_z v) (v_igm v) lam L) as [E _]. congruence. Qed.
Lemma Unreached axis f0 t0 cs cs' t t' : increasing axis -> (forall l, In l axis -> 1216 < l) -> NewTpl axis f0 = Ok t0 -> Forall convolved cs -> Forall convolved cs' -> same_but_igm cs cs' -> run t0 cs = Ok t -> run t0 cs' = Ok t' -> Forall2 Qeq (t_flux t) (t_flux t').
Proof.
  intros I0 Ab N C C' (E1 & E2 & E3 & E4 & E5 & E6) H H'. destruct (Session _ _ _ _ _ I0 N C H) as (_ & L & _ & P). destruct (Session _ _ _ _ _ I0 N C' H') as (_ & L' & _ & P').
  assert (Laf : List.length axis = List.length f0) by (unfold NewTpl in N; destruct (Nat.eqb_spec (List.length axis) (List.length f0)); [assumption|discriminate]).
  assert (G : forall a b : list Q, List.length a = List.length b -> (forall k x y, nth_error a k = Some x -> nth_error b k = Some y -> x == y) -> Forall2 Qeq a b).
  { induction a as [|x a IH]; intros [|y b] Lab F; try discriminate; constructor; [exact (F 0%nat x y eq_refl eq_refl)|]. apply IH; [cbn [List.length] in Lab; lia|]. intros k u v X Y. exact (F (S k) u v X Y). }
  apply G; [congruence|]. intros k x y X Y. assert (K : (k < List.length axis)%nat) by (rewrite Laf, <- L; apply nth_error_Some; congruence).
  destruct (nth_error axis k) as [lam|] eqn:Ea; [|apply nth_error_None in Ea; lia]. destruct (nth_error f0 k) as [f|] eqn:Ef; [|apply nth_error_None in Ef; lia].
  destruct (P k lam f Ea Ef) as (x1 & d & m & X1 & D & M & V). destruct (P' k lam f Ea Ef) as (x2 & d' & m' & X2 & D' & M' & V'). assert (x1 = x) by congruence. assert (x2 = y) by congruence. subst x1 x2.
  assert (Lk : 1216 < lam) by (apply Ab; exact (nth_error_In _ _ Ea)). rewrite (igm_one _ _ _ _ Lk M) in V. rewrite (igm_one _ _ _ _ Lk M') in V'.
  assert (d = d'). { unfold dust_of, in_range in D, D'. rewrite <- E1, <- E2, <- E3, <- E4, <- E5 in D'. destruct D as [(A & B & c & Cc & Hd)|[A Hd]], D' as [(A' & B' & c' & Cc' & Hd')|[A' Hd']].
    - congruence.
    - exfalso. destruct A' as [A'|A']; [contradiction|lia].
    - exfalso. destruct A as [A|A]; [contradiction|lia].
    - congruence. }
  subst d'. rewrite V, V', E6. reflexivity.
Qed.
