(** C91: examples. *)
From Coq Require Import String Sorting.Permutation.
From Verif Require Import Base RangeModel RangeProofs F64 RulesModel LyaModel SolModel SolSpec SolProofs SolProofs2 SolProofs3 SolProofs4 SolProofs5 SolProofs6.
Open Scope Q_scope.

Definition ln (id : Z) (name : string) (ty : ltype) (g strid : string) (p : profile) : line := mkLine id name ty g strid 0 p.
Definition catm : list line := [ln 1 "LyAE" Emission "undefined" "l1" (Fit 8 (mkA 2 2 0) "mean"); ln 2 "Halpha" Emission "g" "l2" (Sym 8); ln 3 "[NII]a" Emission "g" "l3" (Sym 8);
  ln 4 "[NII]b" Emission "h" "l4" (Sym 8); ln 5 "Fe" Absorption "undefined" "l5" (Sym 8)].
Definition envm : env := mkEnv (fun _ _ => (Some 3, Some 1)) (fun _ => Some 1) (fun l _ => (inject_Z (Z.of_nat (List.length l)), 4)) (fun _ _ z => z) 2 (fun p k _ => (Nat.eqb p 0 && Nat.eqb k 0)%bool) (fun p _ _ => inject_Z (Z.of_nat p)) (fun _ _ _ => 2) (fun x => x) (fun x => x) true true.
(** the groups: "g" (2, 3), "h" (4), "single_l1", "single_l5" *)
Definition fitted (e : elt) (a d : num) (info : string) : elt :=
  mkElt (t_lines e) (t_em e) (t_vem e) (t_vab e) (map (fun _ => a) (t_amp e)) (map (fun _ => d) (t_std e)) (t_off e) (t_ids e) info (Some 1, Some 2, Some 3) (t_asym e) (t_limit e).
Definition esm : list elt := match LoadCatalog Default catm (Some 100) (Some 300) with Ok [a; b; c; d] => [fitted a (Some 5) (Some 1) "x"; fitted b (Some 2) (Some 1) "y"; fitted c (Some 7) (Some 2) "z"; fitted d (Some (1 # 2)) (Some 1) "w"] | _ => [] end.
Definition stm : st := mkSt (Some 6) esm [[false; false]; [false]; [true]; [false]] [false; false; true; false].
Definition stm2 : st := match LoadCatalog Default catm None None with Ok es => mkSt (Some 1) es [] [] | _ => stm end.
Lemma stm_ok : st_ok stm.
Proof.
  split; [split|split; [discriminate|split]].
  - repeat constructor; discriminate.
  - vm_compute. repeat constructor; cbn; intuition discriminate.
  - repeat constructor.
  - reflexivity.
Qed.
Lemma catm_distinct : distinct_ids catm. Proof. vm_compute. repeat constructor; cbn; intuition discriminate. Qed.
Lemma stm_twin : twin stm stm2.
Proof. unfold twin. repeat (constructor; [split; [split; [discriminate|repeat split]|split; [repeat (constructor; [repeat split|]); constructor|split; reflexivity]]|]). constructor. Qed.
Lemma stm_seen : forall x k i e, In x catm -> measured stm x k i e -> usable (val (t_amp e) i) -> exists p, seen_in envm k i p.
Proof.
  intros x k i e _ _ _. destruct k as [|k].
  - exists 1%nat. split; [cbn; lia|]. split; [reflexivity|]. intros q Lq. assert (q = 0%nat) by lia. subst q. reflexivity.
  - exists 0%nat. split; [cbn; lia|]. split; [reflexivity|]. intros; lia.
Qed.
Lemma stm_limits : within_limits stm.
Proof.
  intros e a I J T. cbn in I. destruct I as [E|[E|[E|[E|[]]]]]; subst e; cbn in T; try discriminate. cbn in J. destruct J as [J|[]]. injection J as <-. cbn. lra.
Qed.
Lemma ex_solution : match GetModelSolution envm true catm stm with Ok o => map (fun r => (r_id r, r_elt r, r_out r)) (o_rows o) = [(1, 2, true); (2, 0, false); (3, 0, false); (4, 1, false); (5, 3, false)]%Z /\
    map (fun r => option_map Qred (r_flux r)) (o_rows o) = [None; Some (inject_Z 10); Some (inject_Z 10); Some (inject_Z 4); Some (inject_Z (-3))] /\ o_nddl o = 3%nat /\ o_vem o = Some (inject_Z 100) /\ o_lya o = (Some (inject_Z 2), Some (inject_Z 2), Some (inject_Z 0)) | _ => False end.
Proof. vm_compute. repeat split. Qed.
(** ** refuted *)
(** a group of lines of both types *)
Lemma ex_mixed : match LoadCatalog Default [ln 1 "a" Emission "g" "l1" (Sym 8); ln 2 "b" Absorption "g" "l2" (Sym 8)] (Some 100) (Some 300) with
  | Ok [e] => map l_type (t_lines e) = [Emission; Absorption] /\ t_em e = true /\ getVelocity e = Some 100 | _ => False end.
Proof. vm_compute. repeat split. Qed.
(** a group with the name of a line which has none *)
Lemma ex_single : match LoadCatalog Default [ln 1 "a" Emission "undefined" "l1" (Sym 8); ln 2 "b" Emission "single_l1" "l2" (Sym 8)] (Some 100) (Some 300) with
  | Ok [e] => map l_id (t_lines e) = [1; 2]%Z /\ map l_group (t_lines e) = ["undefined"; "single_l1"]%string | _ => False end.
Proof. vm_compute. repeat split. Qed.
(** the velocities of a solution which is loaded and read again *)
Lemma ex_velocity : match GetModelSolution envm true catm stm with
  | Ok o => match LoadModelSolution true o stm2 with
            | Ok s => match GetModelSolution envm true catm (mkSt (s_z s) (s_elts s) (s_out stm) (s_allout stm)) with
                      | Ok o' => o_vem o = Some (inject_Z 100) /\ o_vab o = Some (inject_Z 300) /\ o_vem o' = Some (inject_Z 100) /\ o_vab o' = None | _ => False end
            | _ => False end
  | _ => False end.
Proof. vm_compute. repeat split. Qed.
(** the short solution loaded by a model with a polynomial: NaN *)
Lemma ex_poly : match GetModelSolution envm false catm stm with
  | Ok o => match LoadModelSolution true o stm2 with Ok s => map t_poly (s_elts stm) = repeat (Some (inject_Z 1), Some (inject_Z 2), Some (inject_Z 3)) 4 /\ map t_poly (s_elts s) = repeat nan3 4 | _ => False end
  | _ => False end.
Proof. vm_compute. repeat split. Qed.
(** the uncertainty of a null flux *)
Lemma ex_null_flux : direct_ok envm [] false (Some 0) NaN /\ snd (v_di envm [] false) == 4.
Proof. split; [|reflexivity]. split; [intro L; exfalso; apply Qle_bool_iff in L; discriminate|]. intros _. split; reflexivity. Qed.
(** a fourth line of the complex is ignored *)
Lemma ex_fourth : match GetModelSolution envm true (catm ++ [ln 6 "[NII]b" Emission "h" "l6" (Sym 8)])
    (mkSt (Some 6) (esm ++ match LoadCatalog OneLine [ln 6 "[NII]b" Emission "h" "l6" (Sym 8)] None None with Ok [e] => [fitted e (Some 1000) (Some 1) "v"] | _ => [] end) (s_out stm ++ [[false]]) (s_allout stm ++ [false])) with
  | Ok o => map (fun r => option_map Qred (r_flux r)) (o_rows o) = [None; Some (inject_Z 10); Some (inject_Z 10); Some (inject_Z 4); Some (inject_Z (-3)); Some (inject_Z 2000)] /\ c_lf (o_ha o) = Fin (inject_Z 24)
  | _ => False end.
Proof. vm_compute. repeat split. Qed.

(** a quotient of two Float64 *)
Lemma quotient_spec a b :
  (forall x y, a = Some x -> b = Some y ->
     (~ y == 0 -> fquo a b = Fin (x / y)) /\ (y == 0 -> 0 < x -> fquo a b = PInf) /\ (y == 0 -> x < 0 -> fquo a b = NInf) /\ (y == 0 -> x == 0 -> fquo a b = NaN)) /\
  (a = None \/ b = None -> fquo a b = NaN).
Proof.
  split.
  - intros x y -> ->. unfold fquo. repeat apply conj.
    + intro N. destruct (Qeq_bool_spec y 0) as [E|E]; [contradiction|]. reflexivity.
    + intros Z0 P. rewrite (proj2 (Qeq_bool_iff y 0) Z0). destruct (Qeq_bool_spec x 0) as [E|E]; [lra|]. rewrite (proj2 (Qltb_true _ _) P). reflexivity.
    + intros Z0 P. rewrite (proj2 (Qeq_bool_iff y 0) Z0). destruct (Qeq_bool_spec x 0) as [E|E]; [lra|]. destruct (Qltb_spec 0 x) as [L|L]; [lra|]. reflexivity.
    + intros Z0 P. rewrite (proj2 (Qeq_bool_iff y 0) Z0), (proj2 (Qeq_bool_iff x 0) P). reflexivity.
  - intros [-> | ->]; [reflexivity|]. destruct a; reflexivity.
Qed.
(** the lines of the two complexes *)
Lemma complex_names name :
  (is_ha name = true <-> name = "Halpha"%string \/ name = "[NII]a"%string \/ name = "[NII]b"%string) /\
  (is_oii name = true <-> name = "[OII]3726"%string \/ name = "[OII]3729"%string).
Proof. unfold is_ha, is_oii. rewrite !orb_true_iff, !String.eqb_eq. tauto. Qed.
