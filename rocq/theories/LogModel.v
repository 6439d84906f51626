(** Model of the logger (C41, C47): RedshiftLibrary/src/lib/log/log.cpp, log/handler.cpp, log/log.h.
    Handlers are identified by a number (their address); the text written by a handler is not modelled beyond the
    message it receives. The timestamp (log.cpp:63-64) is not modelled. *)
From Coq Require Import String.
From Verif Require Import Base.

(** log.h:73-81 *)
Inductive level := Critical | Error | Warning | Info | Detail | Debug | None_.
Definition level_code (l : level) : Z :=
  match l with Critical => 100 | Error => 90 | Warning => 80 | Info => 70 | Detail => 65 | Debug => 60 | None_ => 0 end.
(** log.cpp:141-170; the default branch (std::string built from NULL) is not reachable with an enumerated level *)
Definition GetHeader (l : level) : string :=
  match l with
  | Critical => "Critical: " | Error => "Error: " | Warning => "Warning: " | Info => "Info: "
  | Detail => "Detail: " | Debug => "Debug: " | None_ => "" end%string.

Definition table_size : nat := 8. (* log.h:49 *)
Record log_state := mkLog {
  tbl : list (option nat);      (* m_HandlerTable *)
  mask : nat -> Z }.            (* m_LevelMask of each handler *)

(** log.cpp:50-55 *)
Definition empty_log : log_state := mkLog (repeat None table_size) (fun _ => 80%Z).

(** log.cpp:125-134 *)
Fixpoint add_handler (h : nat) (t : list (option nat)) : list (option nat) :=
  match t with
  | [] => []
  | None :: r => Some h :: r
  | Some g :: r => Some g :: add_handler h r
  end.
(** log.cpp:110-119 *)
Fixpoint remove_handler (h : nat) (t : list (option nat)) : list (option nat) :=
  match t with
  | [] => []
  | Some g :: r => if Nat.eqb g h then None :: r else Some g :: remove_handler h r
  | None :: r => None :: remove_handler h r
  end.

Record delivery := mkDel { to : nat; at_level : level; text : string }.

(** log.cpp:65-71 for one slot *)
Definition slot_deliver (s : log_state) (l : level) (msg : string) (o : option nat) : list delivery :=
  match o with
  | Some h => if (mask s h <=? level_code l)%Z then [mkDel h l (GetHeader l ++ msg)%string] else []
  | None => []
  end.
(** log.cpp:59-73 *)
Definition logEntry (s : log_state) (l : level) (msg : string) : list delivery :=
  flat_map (slot_deliver s l msg) (tbl s).

(** handler.cpp:44-53 *)
Inductive log_op := Construct (h : nat) | Destroy (h : nat) | SetLevelMask (h : nat) (m : Z).
Definition upd (f : nat -> Z) (h : nat) (v : Z) : nat -> Z := fun x => if Nat.eqb x h then v else f x.
Definition log_step (s : log_state) (o : log_op) : log_state :=
  match o with
  | Construct h => mkLog (add_handler h (tbl s)) (upd (mask s) h (level_code Warning))
  | Destroy h => mkLog (remove_handler h (tbl s)) (mask s)
  | SetLevelMask h m => mkLog (tbl s) (upd (mask s) h m)
  end.
Definition log_run (ops : list log_op) : log_state := fold_left log_step ops empty_log.

(** ** Concurrent calls of logEntry (log.cpp:59-73): m_Mutex is locked, the slots are visited one by one, m_Mutex is
    unlocked. The handler table is not protected by the mutex; here it is fixed, see [race_step] below for the
    registration of handlers during a call. *)
Inductive pc := Idle | InLoop (l : level) (m : string) (i : nat).
Record thread := mkThread { todo : list (level * string); at_pc : pc }.
Record conc := mkConc { lock : option nat; threads : list thread; out : list delivery }.

Definition set_thread (ts : list thread) (t : nat) (th : thread) : list thread := firstn t ts ++ th :: skipn (S t) ts.

(** one atomic step of thread t (no step when the thread is blocked or finished) *)
Definition cstep (s : log_state) (c : conc) (t : nat) : conc :=
  match nth_error (threads c) t with
  | None => c
  | Some th =>
      match at_pc th with
      | Idle =>
          match todo th, lock c with
          | (l, m) :: rest, None => mkConc (Some t) (set_thread (threads c) t (mkThread rest (InLoop l m 0))) (out c)
          | _, _ => c
          end
      | InLoop l m i =>
          if Nat.ltb i table_size then
            mkConc (lock c) (set_thread (threads c) t (mkThread (todo th) (InLoop l m (S i))))
                   (out c ++ slot_deliver s l m (nth i (tbl s) None))
          else mkConc None (set_thread (threads c) t (mkThread (todo th) Idle)) (out c)
      end
  end.
Definition crun (s : log_state) (queues : list (list (level * string))) (sched : list nat) : conc :=
  fold_left (cstep s) sched (mkConc None (map (fun q => mkThread q Idle) queues) []).

(** ** Registration is not protected: a destructor running between the test log.cpp:66 and the call log.cpp:68 *)
Record race := mkRace { rtbl : list (option nat); alive : nat -> bool; looked : option nat }.
Inductive race_op := Look (i : nat)        (* log.cpp:66: m_HandlerTable[i] read, not NULL *)
                   | Call                  (* log.cpp:68: LogEntry called on the pointer read *)
                   | Dtor (h : nat).       (* handler.cpp:49, in another thread: takes no lock *)
(** None: a destroyed handler is used *)
Definition race_step (r : race) (o : race_op) : res race :=
  match o with
  | Look i => Ok (mkRace (rtbl r) (alive r) (nth i (rtbl r) None))
  | Call => match looked r with
            | None => Ok r
            | Some h => if alive r h then Ok (mkRace (rtbl r) (alive r) None) else UB
            end
  | Dtor h => Ok (mkRace (remove_handler h (rtbl r)) (fun x => if Nat.eqb x h then false else alive r x) (looked r))
  end.
Fixpoint race_run (r : race) (ops : list race_op) : res race :=
  match ops with [] => Ok r | o :: t => do r' <- race_step r o; race_run r' t end.
