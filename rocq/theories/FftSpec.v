(** What the cross-correlations should be, without Fourier transforms. *)
From Verif Require Import Base RBase.
Open Scope R_scope.

(** Σ_j X[j]·Y[j+k] *)
Fixpoint dot (X Y : list R) : R :=
  match X, Y with
  | x :: X', y :: Y' => x * y + dot X' Y'
  | _, _ => 0
  end.
Definition correlation_at (X Y : list R) (k : nat) : R := dot X (skipn k Y).
(** one value per shift of the spectrum inside the template *)
Definition correlations (X Y : list R) : list R :=
  map (correlation_at X Y) (seq 0 (length Y - length X + 1)).

(** spectrum not empty, no longer than the template, which fits in the padded buffers *)
Definition fits (n : nat) (X Y : list R) : Prop :=
  (1 <= length X <= length Y)%nat /\ (length Y <= n)%nat.

(** the same sum when the template is continued by zeros up to [n] samples, then periodically *)
Definition cyclic_at (n : nat) (X Y : list R) (k : nat) : R :=
  dot X (map (fun j => nth ((j + k) mod n) Y 0) (seq 0 (length X))).

(** calls = (spectrum vector, template vector, slot); the vector of the first call with the same
    slot, for the two slots that keep their transform *)
Definition kept_slot (slot : Z) : bool := ((slot =? 0) || (slot =? 1))%Z.
Definition source (earlier : list (list R * list R * Z)) (X : list R) (slot : Z) : list R :=
  if kept_slot slot then
    match find (fun c => (snd c =? slot)%Z) earlier with
    | Some c => fst (fst c)
    | None => X
    end
  else X.
(** no slot is used with two different vectors *)
Definition consistent (l : list (list R * list R * Z)) : Prop :=
  forall X Y X' Y' slot, kept_slot slot = true -> In (X, Y, slot) l -> In (X', Y', slot) l -> X = X'.
