(** Vocabulary for C17. *)
From Verif Require Import Base RBase RX AxisModel AxisFlagModel.
Open Scope R_scope.

(** A history is "safe" when each operation satisfies [P] on the samples it is applied to. *)
Fixpoint safe_history (P : list R -> axop -> Prop) (a : axis) (ops : list axop) : Prop :=
  match ops with
  | [] => True
  | o :: t => P (samples a) o /\ forall a', ax_step a o = Ok a' -> safe_history P a' t
  end.

(** The operations that keep the "sorted" verdict right:
    masking, extracting and shrinking (to 2 samples or more) are restricted to sorted axes, scaling by a
    negative number to axes of 2 samples or more, and writing through GetSamplesVector() is excluded. *)
Definition keeps_sorted_verdict (l : list R) (o : axop) : Prop :=
  match o with
  | OScale c => 0 <= c \/ (2 <= length l)%nat
  | ODivide c => 0 < c \/ (c < 0 /\ (2 <= length l)%nat)
  | OMask _ | OExtract _ _ => Rstrictly_increasing l
  | OSetSize n => (Z.of_nat (length l) < n)%Z \/ (n < 2)%Z \/ Rstrictly_increasing l
  | ORawWrite _ _ => False
  | _ => True
  end.

(** The operations that keep the "log-sampled" verdict right: no ApplyOffset, no extract, no SetSize except
    growing, no scaling by zero, negative scaling only on axes without a zero sample. *)
Definition keeps_log_verdict (l : list R) (o : axop) : Prop :=
  match o with
  | OScale c | ODivide c => 0 < c \/ (c < 0 /\ Forall (fun x => x <> 0) l)
  | OExtract _ _ | OOffset _ | ORawWrite _ _ => False
  | OSetSize n => (Z.of_nat (length l) < n)%Z /\ (2 <= n)%Z
  | _ => True
  end.

(** what the queries answer, without the change of the cache *)
Definition answer {A B} (r : res (A * B)) : res A := do x <- r; Ok (fst x).

(** regular in log within 10% of its first step, for a positive axis *)
Definition log_regular (l : list R) : Prop :=
  forall s0 s1, nth_error l 0 = Some s0 -> nth_error l 1 = Some s1 ->
  forall i x y, nth_error l i = Some x -> nth_error l (S i) = Some y ->
    Rabs (ln (y / x) - ln (s1 / s0)) <= 1 / 10 * Rabs (ln (s1 / s0)).
Definition positive_samples (l : list R) : Prop := Forall (fun x => 0 < x) l.

(** the sorted (resp. log-sampled) verdict after the history [ops] on an axis built from [l] contradicts the
    verdict of a new axis holding the same samples *)
Definition stale_sorted (l : list R) (ops : list axop) : Prop :=
  exists a, ax_run (fresh l) ops = Ok a /\ fst (isSorted a) <> fst (isSorted (fresh (samples a))).
Definition stale_log (l : list R) (ops : list axop) : Prop :=
  exists a, ax_run (fresh l) ops = Ok a /\ answer (IsLogSampled a) <> answer (IsLogSampled (fresh (samples a)))
            /\ answer (IsLogSampled (fresh (samples a))) <> UB.
