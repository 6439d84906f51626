(** C74: the search of the line matching method over its detection parameters. *)
From Verif Require Import Base SolvModel SolvSpec SolvProofs.
Open Scope Q_scope.

(** without the dynamic option: one detection and one matching with the given parameters, then the end *)
Theorem C74_single : forall de ma p0 n, loop false de ma p0 (S n) = (do _ <- de p0; do f <- ma p0; Ok (inr (if (f : bool) then Found else Nothing))).
Proof. intros de ma p0 n. unfold loop. cbn [run]. rewrite single. destruct (de p0); cbn [rbind]; [|reflexivity|reflexivity]. destruct (ma p0); reflexivity. Qed.
Print Assumptions C74_single.
(** when it ends with a redshift, at the turn i with the parameters p: the matching succeeded there, with 200 lines or more or after all the values; and no earlier turn which qualified had a redshift *)
Theorem C74_first : forall dy de ma p0 i p, ends_at dy de ma p0 i p -> exists n, de p = Ok n /\ ma p = Ok true /\ ((200 <= n)%Z \/ exhausted dy de ma p0 i \/ dy = false) /\
  forall j q m, (j < i)%nat -> tried dy de ma p0 j q -> de q = Ok m -> ((200 <= m)%Z \/ exhausted dy de ma p0 j) -> ma q = Ok false.
Proof. intros dy de ma. exact (ends de ma dy). Qed.
Print Assumptions C74_first.
(** the values are all used after some number of turns, if nothing ended the search before *)
Theorem C74_exhausts : forall de ma p0, exists n, exhausted true de ma p0 n \/ (exists e, loop true de ma p0 n = Ok (inr e)) \/ (exists e, loop true de ma p0 n = Throw e) \/ loop true de ma p0 n = UB.
Proof. exact settled. Qed.
Print Assumptions C74_exhausts.
(** the search then goes on with the values of the turn with the most lines, the last of those turns *)
Theorem C74_best : forall dy de ma p0 n, (forall p n, de p = Ok n -> (0 <= n)%Z) -> ~ exhausted dy de ma p0 n -> exhausted dy de ma p0 (S n) ->
  exists p, tried dy de ma p0 (S n) p /\ last_best dy de ma p0 (S n) p.
Proof. intros dy de ma. exact (best_used de ma dy). Qed.
Print Assumptions C74_best.
(** it fails by itself only when a smaller minimum width gives less lines, all else unchanged *)
Theorem C74_failure : forall dy de ma p0 n e, (forall p n, de p = Ok n -> (0 <= n)%Z) -> (forall p k, de p <> Throw k) -> (forall p k, ma p <> Throw k) -> loop dy de ma p0 n = Throw e ->
  dy = true /\ e = INTERNAL_ERROR /\ exists i p q a b, (S i < n)%nat /\ tried dy de ma p0 i p /\ tried dy de ma p0 (S i) q /\ de p = Ok a /\ de q = Ok b /\ (b < a)%Z /\
    p_cut q = p_cut p /\ p_strong q = p_strong p /\ p_win q = p_win p /\ p_fwhh q <= p_fwhh p.
Proof.
  intros dy de ma p0 n e NN ND NM H. destruct (throws de ma dy p0 n e H NN ND NM) as (A & B & i & p & q & a & b & I0 & T1 & T2 & D1 & D2 & L & V). split; [exact A|]. split; [exact B|]. apply vary_fwhh in V. exists i, p, q, a, b. tauto.
Qed.
Print Assumptions C74_failure.
(** the values stay in fixed ranges around the given ones *)
Theorem C74_ranges : forall dy de ma p0 i p, tried dy de ma p0 i p -> in_range p0 p.
Proof. intros dy de ma. exact (ranges de ma dy). Qed.
Print Assumptions C74_ranges.

(** * a concrete case: the defaults; the number of lines grows when the cut is lower and 200 are found at the third turn *)
Definition ex_p0 : params := mkPar 5 2 250 3.
Definition ex_de (p : params) : res Z := Ok (if Qle_bool (p_fwhh p) (1 # 100) then 250%Z else 10%Z).
Definition ex_ma (p : params) : res bool := Ok (Qltb (p_cut p) 5).
Example C74_case : exists p, ends_at true ex_de ex_ma ex_p0 8 p /\ Qeq_bool (p_cut p) (302 # 100) = true /\ p_fwhh p = 1 # 1000.
Proof. eexists. split; [split; [eexists; split; [vm_compute; reflexivity|reflexivity]|vm_compute; reflexivity]|]. split; vm_compute; reflexivity. Qed.
(** the same without enough lines: all the values are used, then the last best ones give the redshift (from a start near the end of the values) *)
Definition ex_few (p : params) : res Z := Ok (if Qle_bool (p_fwhh p) 5 then 7%Z else 3%Z).
Definition ex_late : params := mkPar (-1) (1 # 100) 10001 6.
Example C74_case_best : ~ exhausted true ex_few (fun _ => Ok true) ex_late 3 /\ exhausted true ex_few (fun _ => Ok true) ex_late 4 /\ exists p, ends_at true ex_few (fun _ => Ok true) ex_late 4 p /\ p_fwhh p = 1 # 1000.
Proof.
  split; [|split].
  - intros (st & H & B). vm_compute in H. inversion H; subst. discriminate.
  - eexists. split; vm_compute; reflexivity.
  - eexists. split; [split; [eexists; split; [vm_compute; reflexivity|reflexivity]|vm_compute; reflexivity]|]. reflexivity.
Qed.
Definition ex_fall (p : params) : res Z := Ok (if Qle_bool (p_fwhh p) 1 then 3%Z else 7%Z).
Example C74_case_failure : loop true ex_fall (fun _ => Ok true) ex_p0 3 = Throw INTERNAL_ERROR /\ loop false ex_fall (fun _ => Ok true) ex_p0 3 = Ok (inr Found).
Proof. split; vm_compute; reflexivity. Qed.

(** * refuted.  The loop has a limit of 100 turns with a warning: it is never reached *)
Theorem C74_limit_refuted : forall dy de ma p0 n, loop dy de ma p0 n <> Ok (inr Limit).
Proof. intros dy de ma. exact (no_limit de ma dy). Qed.
Print Assumptions C74_limit_refuted.
(** the dynamic search never ends when no parameters give a redshift and smaller widths give no less lines *)
Theorem C74_end_refuted : forall de ma p0, (forall p, exists n, de p = Ok n /\ (0 <= n)%Z) -> (forall c g w f f' a b, f' <= f -> de (mkPar c g w f) = Ok a -> de (mkPar c g w f') = Ok b -> (a <= b)%Z) -> (forall p, ma p = Ok false) ->
  forall n, exists st, loop true de ma p0 n = Ok (inl st).
Proof. exact never_ends. Qed.
Print Assumptions C74_end_refuted.
Example C74_end_case : (forall p, exists n, ex_few p = Ok n /\ (0 <= n)%Z) /\ (forall c g w f f' a b, f' <= f -> ex_few (mkPar c g w f) = Ok a -> ex_few (mkPar c g w f') = Ok b -> (a <= b)%Z).
Proof.
  split; [intros p; unfold ex_few; destruct (Qle_bool (p_fwhh p) 5); eexists; (split; [reflexivity|lia])|].
  intros c g w f f' a b L. unfold ex_few. cbn [p_fwhh]. destruct (Qle_bool f 5) eqn:A, (Qle_bool f' 5) eqn:B; intros X Y; inversion X; inversion Y; try lia. exfalso. apply Qle_bool_iff in A. assert (Qle_bool f' 5 = true) by (apply Qle_bool_iff; lra). congruence.
Qed.
(** the cut goes below its minimum of 0.1, even below 0 *)
Theorem C74_cut_refuted : exists de ma i p, tried true de ma ex_p0 i p /\ p_cut p < 0 /\ ~ exhausted true de ma ex_p0 i.
Proof.
  exists (fun _ => Ok 0%Z), (fun _ => Ok false), 15%nat. eexists. split; [eexists; split; [vm_compute; reflexivity|reflexivity]|]. split; [vm_compute; reflexivity|]. intros (st & H & B). vm_compute in H. inversion H; subst. discriminate.
Qed.
Print Assumptions C74_cut_refuted.
