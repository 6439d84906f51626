(** All the names (C97). *)
From Coq Require Import String.
From Verif Require Import Base RdrModel CvtModel CvtNames CvtSpec CvtProofs2 CvtProofs3.
Open Scope string_scope.

Theorem all_names_v1 : forall n, In n (read_cpp ++ read_root) -> exists s, In s schema_v1 /\ rename_str s = n.
Proof. apply read_from_spec. vm_compute. reflexivity. Qed.
Theorem all_names_v2 : forall n, In n (read_cpp ++ read_root) ->
  (~ In n schema_v2 <-> In n ["airVacuumMethod"; "catalogDirPath"; "switchFixedToFit"; "switchFitToFixed"; "hAlphaPrior"; "nOfZPriorStrength"]).
Proof.
  intros n I. assert (C : forallb (fun n => Bool.eqb (negb (smem n schema_v2)) (smem n ["airVacuumMethod"; "catalogDirPath"; "switchFixedToFit"; "switchFitToFixed"; "hAlphaPrior"; "nOfZPriorStrength"])) (read_cpp ++ read_root) = true)
    by (vm_compute; reflexivity).
  rewrite forallb_forall in C. specialize (C n I). cbv beta in C. apply Bool.eqb_prop in C. rewrite <- (smem_in n [_; _; _; _; _; _]), <- C, <- smem_in.
  destruct (smem n schema_v2); cbn; split; intro H; try reflexivity; try discriminate; [exfalso; apply H; reflexivity].
Qed.
