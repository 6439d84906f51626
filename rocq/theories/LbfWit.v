(** Concrete fits (C94). *)
From Verif Require Import Base F64 PolyModel MeikModel LbfModel LbfSpec LbfProofs3 LbfProofs6 LbfProofs7 LbfProofs8 LbfProofs9.
Open Scope Q_scope.

Definition axis0 : list Q := [1; 2; 3; 4; 5; 6; 7; 8].
Definition flux0 : list Q := [1; 2; 4; 2; 1; 0; 0; 0].
Definition ones : list Q := [1; 1; 1; 1; 1; 1; 1; 1].
Definition all8 : list nat := [0; 1; 2; 3; 4; 5; 6; 7]%nat.
Definition prof0 (_ : kind) (l : line) (_ _ x : Q) : Q := if Qeq_bool x (l_pos l) then 1 else 0.
Definition profile0 k l v o x : res Q := Ok (prof0 k l v o x).
Definition never (_ : kind) (_ : line) (_ _ : Q) : bool := false.
Definition svd0 (_ : list elt) : res ((nat -> option Q * f64) * (Q * Q * Q)) := Ok (fun _ => (Some 4, Fin 1), (0, 0, 0)).
(** evaluates the guess, then returns it *)
Definition solver0 (_ : list (f64 * f64)) (g : list Q) (h : list (list Q * Q)) : action := match h with [] => Eval g | _ => Done g end.
Definition width0 (_ : elt) : res Q := Ok 1.
Definition noise0 (_ : list elt) (_ : nat) : f64 := Fin 1.
Definition mean0 (_ : elt) (_ : nat) : Q := 1.
Definition idQ (x : Q) : Q := x.
(** velocities and offsets fitted; the second one without the velocities *)
Definition conf0 : conf := mkConf true false false 10 100 20 100 50 60 (-10) 10.
Definition conf1 : conf := mkConf false true false 10 100 20 100 50 60 (-10) 10.
Definition line0 (p : Q) : line := mkLine p 1 0.
Definition elt0 (k : kind) (p : Q) : elt := mkElt k (-1) [line0 p] 0 0 [0] (0, 0, 0) false [false] [Some 0] [NaN].

Definition fit_of c out sol xs st := fit c axis0 flux0 ones ones out profile0 svd0 sol width0 noise0 mean0 idQ 1 10 xs st.

(** ** hypotheses *)
Example ex_regular : regular conf0 [Em; Em; Ab] /\ needed conf0 3 (kinds_count [Em; Em; Ab]) = 5%nat /\ ~ regular conf0 [Em; Ab; Ab].
Proof.
  split; [|split; [reflexivity|]].
  - intros _. exists Em, [Em; Em], [Ab]. repeat apply conj; [reflexivity|repeat constructor|discriminate|cbn; lia].
  - intro R. destruct (R eq_refl) as (k & a & tail & E & F & N & L). destruct a as [|x a]; [congruence|]. inversion F as [|? ? F1 F2]; subst.
    destruct a as [|y a]; cbn in E; injection E as E1 E2; subst.
    + cbn in L. lia.
    + inversion F2 as [|? ? F3 F4]; subst. discriminate.
Qed.
(** two kinds: the fit is done; the point returned is the guess *)
Lemma ex_fit : exists e1 e2, fit_of conf0 never solver0 all8 [elt0 Em 3; elt0 Ab 7] = Ok [e1; e2] /\
  map (fun e => (Qred (velE e), Qred (velA e), map (option_map Qred) (amps e))) [e1; e2] =
    [(50, 0, [Some 4]); (0, 60, [Some 4])].
Proof. eexists. eexists. split; [vm_compute; reflexivity|]. vm_compute. reflexivity. Qed.
Definition clamp1 (p : f64 * f64) (v : Q) : Q :=
  let v := match fst p with Fin a => Qmaxb v a | _ => v end in match snd p with Fin a => Qminb v a | _ => v end.
Definition geb (b : f64) (x : Q) : bool := match b with Fin q => Qle_bool q x | NInf => true | _ => false end.
Definition leb (x : Q) (b : f64) : bool := match b with Fin q => Qle_bool x q | PInf => true | _ => false end.
Fixpoint clamp (b : list (f64 * f64)) (g : list Q) : list Q :=
  match b with [] => [] | p :: b => clamp1 p (hd 0 g) :: clamp b (tl g) end.
Fixpoint checked (b : list (f64 * f64)) (x : list Q) : bool :=
  match b, x with [], [] => true | p :: b, v :: x => geb (fst p) v && leb v (snd p) && checked b x | _, _ => false end.
(** a minimiser: the guess moved inside the bounds, when they are feasible *)
Definition solverB (b : list (f64 * f64)) (g : list Q) (_ : list (list Q * Q)) : action :=
  let x := clamp b g in if checked b x then Done x else Fail.
Lemma geb_iff p x : geb p x = true -> ge_bound p x.
Proof. destruct p; cbn; try discriminate; [auto|]. apply Qle_bool_iff. Qed.
Lemma leb_iff p x : leb x p = true -> le_bound x p.
Proof. destruct p; cbn; try discriminate; [auto|]. apply Qle_bool_iff. Qed.
Lemma checked_within b : forall x, checked b x = true -> within b x.
Proof.
  induction b as [|p b IH]; intros [|v x] H; try discriminate; [constructor|]. cbn in H. apply andb_prop in H. destruct H as (H & H3).
  apply andb_prop in H. destruct H as (H1 & H2). constructor; [split; [apply geb_iff, H1|apply leb_iff, H2]|apply IH, H3].
Qed.
Lemma clamp_checked b : feasible b -> forall g, checked b (clamp b g) = true.
Proof.
  induction 1 as [|p b (v & H1 & H2) F IH]; intro g; [reflexivity|]. cbn. rewrite IH, andb_true_r. destruct p as (lo, hi). cbn [fst snd] in *.
  unfold clamp1. cbn [fst snd]. destruct lo as [| | |a]; cbn in H1; try contradiction; destruct hi as [| | |d]; cbn in H2; try contradiction;
    cbn [geb leb]; rewrite ?andb_true_r, ?andb_true_l; try reflexivity.
  - apply Qle_bool_iff. unfold Qminb. destruct (Qltb_spec d (hd 0 g)); lra.
  - apply Qle_bool_iff. unfold Qmaxb. destruct (Qltb_spec (hd 0 g) a); lra.
  - apply andb_true_intro. split; apply Qle_bool_iff; unfold Qminb, Qmaxb; (destruct (Qltb_spec (hd 0 g) a); [destruct (Qltb_spec d a)|destruct (Qltb_spec d (hd 0 g))]); lra.
Qed.
Lemma ex_solver : bounded_solver solverB /\ finishing 10 solverB /\ sized_solver solver0.
Proof.
  repeat apply conj.
  - intros b g h x E. unfold solverB in E. cbv zeta in E. destruct (checked b (clamp b g)) eqn:C; [|discriminate].
    assert (X : clamp b g = x) by congruence. subst x. apply checked_within, C.
  - intros b F g h. unfold solverB. cbv zeta. rewrite (clamp_checked b F g). split; [discriminate|]. intros _. eexists. reflexivity.
  - intros b g h x [E|E]; destruct h; cbn in E; congruence.
Qed.
Lemma in_arrays_ex : inside_arrays axis0 flux0 ones ones all8.
Proof. intros i H. cbn in H. cbn [length axis0 flux0 ones]. lia. Qed.

(** ** what does not hold *)
(** a group with two elements of the second kind is not fitted: memory is read uninitialised *)
Lemma irregular_ub : fit_of conf0 never solver0 all8 [elt0 Em 3; elt0 Ab 5; elt0 Ab 7] = UB.
Proof. vm_compute. reflexivity. Qed.
(** ... while the same elements, in another order, are *)
Lemma reordered_ok : exists r, fit_of conf0 never solver0 all8 [elt0 Ab 5; elt0 Ab 7; elt0 Em 3] = Ok r.
Proof. eexists. vm_compute. reflexivity. Qed.

(** the first element goes outside the range during the fit: the error of the next one is lost *)
Definition out_first (_ : kind) (l : line) (_ o : Q) : bool := Qeq_bool (l_pos l) 1 && Qltb 5 o.
Definition solver1 (_ : list (f64 * f64)) (_ : list Q) (_ : list (list Q * Q)) : action := Done [1; 1; 1].
Lemma break_nan : exists e1 e2, fit_of conf1 out_first solver1 all8 [elt0 Em 1; elt0 Em 3] = Ok [e1; e2] /\
  out e1 = true /\ out e2 = false /\ map (option_map Qred) (amps e2) = [Some 4] /\ stds e2 = [NaN].
Proof. eexists. eexists. split; [vm_compute; reflexivity|]. repeat apply conj; vm_compute; reflexivity. Qed.

(** the value at a point depends on the point evaluated before *)
Definition lay1 : layout := mkLay 2 None None None (Some 1%nat) None.
Definition ev1 := evaluate conf1 axis0 flux0 ones ones out_first profile0 lay1 (mkNPoly 0 0 0 0 0) 1 26 all8.
Lemma evaluation_history : make_layout conf1 [Em] = Ok lay1 /\
  exists st2 st3 v1 v2, ev1 [elt0 Em 1] [1; 0] = Ok (st3, v1) /\ (exists w, ev1 [elt0 Em 1] [1; 1] = Ok (st2, w)) /\
  (exists st4, ev1 st2 [1; 0] = Ok (st4, v2)) /\ Qred v1 = 25 /\ Qred v2 = 26.
Proof.
  split; [reflexivity|]. do 4 eexists. split; [vm_compute; reflexivity|]. split; [eexists; vm_compute; reflexivity|].
  split; [eexists; vm_compute; reflexivity|]. split; vm_compute; reflexivity.
Qed.

(** with enableOffsetFitting = false the offsets are fitted all the same *)
Lemma offset_flag : exists e, fitAmplitudesLinSolveAndLambdaOffset conf1 axis0 flux0 ones ones never profile0 svd0
    (fun _ _ _ => Done [1; 1]) width0 noise0 mean0 idQ 1 10 all8 [elt0 Em 3] false = Ok [e] /\ map Qred (offs e) = [10].
Proof. eexists. split; [vm_compute; reflexivity|]. vm_compute. reflexivity. Qed.

(** too few samples: the velocities stay at the largest values, where the supports were prepared *)
Lemma ill_velocity : exists e, fit_of conf0 never solver0 [2%nat] [resetSupport conf0 never (elt0 Em 3)] = Ok [e] /\ velE e = maxE conf0.
Proof. eexists. split; [vm_compute; reflexivity|]. vm_compute. reflexivity. Qed.

(** absorption of half the continuum, fluxes of 1/100: with the limit 1 the amplitude is at most 1/100 *)
Definition fluxA : list Q := [0; 0; - (1 # 200); 0; 0; 0; 0; 0].
Definition contA : list Q := [1 # 100; 1 # 100; 1 # 100; 1 # 100; 1 # 100; 1 # 100; 1 # 100; 1 # 100].
Definition eltA : elt := mkElt Ab 1 [line0 3] 0 0 [0] (0, 0, 0) false [false] [Some 0] [NaN].
Definition svdA (_ : list elt) : res ((nat -> option Q * f64) * (Q * Q * Q)) := Ok (fun _ => (Some (1 # 2), Fin (1 # 100)), (0, 0, 0)).
Definition confA : conf := mkConf false false false 10 100 20 100 50 60 (-10) 10.
Lemma absorption_bound :
  (* an amplitude of 1/2, within the limit, is the data *)
  (exists m, mapr (fun i => getModelAtLambda profile0 (set_amplitudes eltA (Some (1 # 2)) (Fin 0)) (nth i axis0 0) (nth i contA 0)) all8 = Ok m /\
    map Qred m = fluxA) /\
  (* the linear fit finds it *)
  (exists e, linear confA svdA [eltA] [e] /\ map (option_map Qred) (amps e) = [Some (1 # 2)]) /\
  exists e, fit confA axis0 fluxA contA contA never profile0 svdA solverB width0 noise0 mean0 idQ 1 10 all8 [eltA] = Ok [e] /\
  map (option_map Qred) (amps e) = [Some (1 # 200)].
Proof.
  split; [eexists; split; vm_compute; reflexivity|].
  split; [eexists; split; [eexists; split; vm_compute; reflexivity|vm_compute; reflexivity]|].
  eexists. split; [vm_compute; reflexivity|]. vm_compute. reflexivity.
Qed.
