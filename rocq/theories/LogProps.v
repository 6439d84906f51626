(** Properties C41 (delivery of log messages) and C47 (concurrent log messages). *)
From Coq Require Import String.
From Verif Require Import Base LogModel LogSpec LogProofs.
Open Scope nat_scope.

(** After every history of constructions, destructions and level settings, a message is delivered exactly once to each
    handler that has a place and whose level is at most the message level, to no other, with the header of its level. *)
Theorem C41_delivery : forall ops l m, history ops ->
  let ds := logEntry (log_run (rev ops)) l m in
  NoDup (map to ds) /\
  (forall d, In d ds -> at_level d = l /\ text d = (GetHeader l ++ m)%string) /\
  (forall h, In h (map to ds) <-> In h (placed ops) /\ (level_of ops h <= level_code l)%Z).
Proof. exact delivery_spec. Qed.
Print Assumptions C41_delivery.

(** when at most eight handlers ever live at the same time, every live handler has a place *)
Theorem C41_all_live_handlers_served : forall ops, history ops ->
  (forall a r, ops = a ++ r -> (length (live r) <= 8)%nat) -> forall h, In h (placed ops) <-> In h (live ops).
Proof. exact all_placed. Qed.
Print Assumptions C41_all_live_handlers_served.

(** a handler keeps its delivery position during its life *)
Theorem C41_delivery_order_stable : forall s o i g,
  nth_error (tbl s) i = Some (Some g) -> o <> Destroy g -> nth_error (tbl (log_step s o)) i = Some (Some g).
Proof. exact slot_kept. Qed.
Print Assumptions C41_delivery_order_stable.

(** "every live handler receives its messages" fails beyond eight: the ninth is dropped and stays silent even after a
    place becomes free *)
Theorem C41_ninth_handler_refuted : exists ops h, history ops /\ In h (live ops) /\
  (length (live ops) <= 8) /\ forall l m, ~ In h (map to (logEntry (log_run (rev ops)) l m)).
Proof.
  exists [Destroy 0; Construct 8; Construct 7; Construct 6; Construct 5; Construct 4; Construct 3; Construct 2; Construct 1; Construct 0].
  exists 8. assert (H : history [Destroy 0; Construct 8; Construct 7; Construct 6; Construct 5; Construct 4; Construct 3; Construct 2; Construct 1; Construct 0]).
  { simpl. intuition lia. }
  split; [exact H|]. split; [simpl; auto|]. split; [vm_compute; lia|].
  intros l m Hin. apply (proj2 (proj2 (delivery_spec _ l m H))) in Hin. destruct Hin as [Hin _]. vm_compute in Hin. intuition discriminate.
Qed.
Print Assumptions C41_ninth_handler_refuted.

Example C41_ex : logEntry (log_run (rev [Construct 5; Destroy 1; SetLevelMask 2 60; Construct 3; Construct 2; Construct 1])) Info "hi"
  = [mkDel 2 Info "Info: hi"].
Proof. reflexivity. Qed.
Example C41_ex_history : history [Construct 5; Destroy 1; SetLevelMask 2 60; Construct 3; Construct 2; Construct 1].
Proof. simpl. intuition lia. Qed.

(** ** C47 *)
(** For any number of threads, any messages and any schedule: there is one global order of the messages, respecting
    the order of each thread, such that the deliveries are those of the messages one after the other, never mixed; a
    message whose call is running has been delivered to the first places only. *)
Theorem C47_messages_never_interleave : forall s queues sched, length (tbl s) = 8 ->
  let c := crun s queues sched in
  exists order, (forall t q, nth_error queues t = Some q -> of_thread t order ++ pending c t = q) /\
    (lock c = None -> out c = flat_map (fun x => logEntry s (fst (snd x)) (snd (snd x))) order) /\
    (forall t, lock c = Some t -> exists done l m i, order = done ++ [(t, (l, m))] /\
       out c = flat_map (fun x => logEntry s (fst (snd x)) (snd (snd x))) done ++ flat_map (slot_deliver s l m) (firstn i (tbl s))).
Proof. exact no_interleaving. Qed.
Print Assumptions C47_messages_never_interleave.

Theorem C47_no_deadlock : forall s queues sched, length (tbl s) = 8 ->
  let c := crun s queues sched in
  (exists t th, nth_error (threads c) t = Some th /\ (todo th <> [] \/ at_pc th <> Idle)) ->
  exists t, cstep s c t <> c.
Proof. exact some_thread_progresses. Qed.
Print Assumptions C47_no_deadlock.

(** The table itself is not protected: a handler destroyed by another thread during a message is used afterwards. *)
Theorem C47_destruction_during_a_message_refuted :
  exists r ops, (forall i h, nth_error (rtbl r) i = Some (Some h) -> alive r h = true) /\ looked r = None /\
    race_run r ops = UB.
Proof.
  exists (mkRace [Some 1; None; None; None; None; None; None; None] (fun _ => true) None), [Look 0; Dtor 1; Call].
  split; [reflexivity|]. split; reflexivity.
Qed.
Print Assumptions C47_destruction_during_a_message_refuted.

Example C47_ex : let s := log_run [Construct 1; Construct 2] in
  let q := [[(Error, "a"%string)]; [(Warning, "b"%string)]] in
  length (tbl s) = 8 /\
  map to (out (crun s q [0;1;0;1;0;0;0;0;0;0;0;0;0;1;1;1;1])) = [1;2;1;2].
Proof. split; reflexivity. Qed.
