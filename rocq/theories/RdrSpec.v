(** Vocabulary for C96: the rows of the spectra loaded. *)
From Coq Require Import String Permutation Sorted.
From Verif Require Import Base RdrModel.
Open Scope string_scope.

(** ** Columns and filters *)
(** value of column [c] at row [k] *)
Definition at_row (c : column) (k : nat) (x : cell) : Prop := nth_error (cells c) k = Some x.
Definition integer_at (c : column) (k : nat) (a : Z) : Prop := exists l, c = Ints l /\ nth_error l k = Some a.
(** the number row [k] is compared with *)
Definition against (v : value) (k : nat) (q : Q) : Prop :=
  match v with VInt z => q = inject_Z z | VFloat x => q = x | VList l => nth_error l k = Some q end.
(** a flag with a bit in common with a mask *)
Definition shares_bit (a b : Z) : Prop := exists n, (0 <= n)%Z /\ Z.testbit a n = true /\ Z.testbit b n = true.

(** the row [k] of column [c] meets the instruction *)
Inductive meets (v : value) (c : column) (k : nat) : string -> Prop :=
| m_lt a q : at_row c k (Some a) -> against v k q -> (a < q)%Q -> meets v c k "<"
| m_gt a q : at_row c k (Some a) -> against v k q -> (q < a)%Q -> meets v c k ">"
| m_le a q : at_row c k (Some a) -> against v k q -> (a <= q)%Q -> meets v c k "<="
| m_ge a q : at_row c k (Some a) -> against v k q -> (q <= a)%Q -> meets v c k ">="
| m_eq a q : at_row c k (Some a) -> against v k q -> (a == q)%Q -> meets v c k "="
| m_ne x q : at_row c k x -> against v k q -> (forall a, x = Some a -> ~ (a == q)%Q) -> meets v c k "!="
| m_in a l q : v = VList l -> at_row c k (Some a) -> In q l -> (a == q)%Q -> meets v c k "in"
| m_notin x l : v = VList l -> at_row c k x -> (forall a q, x = Some a -> In q l -> ~ (a == q)%Q) -> meets v c k "~in"
| m_and a z : integer_at c k a -> v = VInt z -> shares_bit a z -> meets v c k "&"
| m_nand a z : integer_at c k a -> v = VInt z -> ~ shares_bit a z -> meets v c k "~&"
| m_and0 a z : integer_at c k a -> v = VInt z -> a = 0%Z \/ shares_bit a z -> meets v c k "0&"
| m_xor a z : integer_at c k a -> v = VInt z -> a <> z -> meets v c k "^".

(** ** What the client gave *)
(** the column of an observation: an additional one, or one of the three others *)
Definition given (r : reader) (obs name : string) : option column :=
  match dget name (others r) with
  | Some d => dget obs d
  | None => if name =? "waves" then option_map Floats (dget obs (waves r))
            else if name =? "fluxes" then option_map Floats (dget obs (fluxes r))
            else if name =? "errors" then option_map Floats (dget obs (errors r))
            else None
  end.
(** dictionaries *)
Record dictionaries (r : reader) : Prop := {
  d_waves : NoDup (dkeys (waves r)); d_fluxes : NoDup (dkeys (fluxes r)); d_errors : NoDup (dkeys (errors r));
  d_others : NoDup (dkeys (others r)); d_other : forall n d, In (n, d) (others r) -> NoDup (dkeys d) }.
(** same observations everywhere, with as many samples in all the columns *)
Definition coherent (r : reader) : Prop :=
  (forall o, In o (dkeys (waves r)) <-> In o (dkeys (fluxes r))) /\
  (forall o, In o (dkeys (waves r)) <-> In o (dkeys (errors r))) /\
  (forall n d, In (n, d) (others r) -> forall o, In o (dkeys (waves r)) <-> In o (dkeys d)) /\
  forall o w, dget o (waves r) = Some w -> forall n c, given r o n = Some c -> clen c = List.length w.

(** ** The rows kept *)
Definition filters_of (p : params) : list filt := match p_filters p with Some fs => fs | None => [] end.
(** row [k] of an observation passes the filter *)
Definition passes (r : reader) (obs : string) (k : nat) (f : filt) : Prop :=
  exists c, given r obs (f_key f) = Some c /\ meets (f_value f) c k (f_instr f).
(** the rows of an observation which pass all the filters, in order *)
Definition kept (r : reader) (fs : list filt) (obs : string) (idx : list nat) : Prop :=
  StronglySorted lt idx /\
  exists w, dget obs (waves r) = Some w /\
  forall k, In k idx <-> (k < List.length w)%nat /\ forall f, In f fs -> passes r obs k f.
(** sample [k] of an observation *)
Definition sample (r : reader) (obs : string) (k : nat) (x : row) : Prop :=
  let '(w, f, e) := x in
  (exists c, given r obs "waves" = Some c /\ at_row c k w) /\ (exists c, given r obs "fluxes" = Some c /\ at_row c k f) /\
  (exists c, given r obs "errors" = Some c /\ at_row c k e).
Definition kept_samples (r : reader) (fs : list filt) (obs : string) (l : list row) : Prop :=
  exists idx, kept r fs obs idx /\ Forall2 (sample r obs) idx l.

(** ** Merged spectra *)
Definition has_wave (x : row) (w : Q) : Prop := exists v, wave x = Some v /\ (v == w)%Q.
Definition wave_lt (x y : row) : Prop := exists a b, wave x = Some a /\ wave y = Some b /\ (a < b)%Q.
Definition same_wave (w : Q) (x : row) : bool := match wave x with Some v => Qeq_bool w v | None => false end.
(** the samples by increasing wavelength, the k-th one of a wavelength (from 0) shifted by k times 1e-10 *)
Definition merged (l m : list row) : Prop :=
  StronglySorted wave_lt m /\
  exists s, Permutation l s /\
    Forall2 (fun x y => snd (fst y) = snd (fst x) /\ snd y = snd x /\
      exists w k, wave x = Some w /\ (k < List.length (filter (same_wave w) l))%nat /\
                  has_wave y (w + inject_Z (Z.of_nat k) * (1 # 10000000000))) s m.
(** a sorting algorithm *)
Definition sorts (sort_rows : list (Q * (cell * cell)) -> list (Q * (cell * cell))) : Prop :=
  forall l, Permutation l (sort_rows l) /\ StronglySorted (fun x y => (fst x <= fst y)%Q) (sort_rows l).
(** different wavelengths are far enough from each other *)
Definition spaced (l : list row) : Prop :=
  (forall x, In x l -> wave x <> None) /\
  forall x y a b, In x l -> In y l -> wave x = Some a -> wave y = Some b -> (a < b)%Q ->
    (a + inject_Z (Z.of_nat (List.length l)) * (1 # 10000000000) < b)%Q.

(** a filter which can be evaluated on a column *)
Definition well_typed (f : filt) (c : column) : Prop :=
  (In (f_instr f) ["<"; ">"; "<="; ">="; "="; "!="] /\ (forall l, f_value f <> VList l)) \/
  (In (f_instr f) ["in"; "~in"] /\ exists l, f_value f = VList l) \/
  (In (f_instr f) ["&"; "~&"; "0&"; "^"] /\ (exists l, c = Ints l) /\ exists z, f_value f = VInt z).

(** ** Ranges *)
(** the range of wavelengths asked for an observation *)
Definition asked (p : params) (obs : string) (lo hi : Q) : Prop :=
  (p_multi p <> Full /\ p_range p = Range lo hi) \/ (p_multi p = Full /\ exists d, p_range p = PerObs d /\ dget obs d = Some (lo, hi)).
Definition first_wave (l : list cell) (a : Q) : Prop := exists t, l = Some a :: t.
Definition last_wave (l : list cell) (a : Q) : Prop := exists t, l = (t ++ [Some a])%list.
(** the range is in the one spanned by the first and the last wavelength of the observation *)
Definition covers (r : reader) (obs : string) (lo hi : Q) : Prop :=
  exists w a b, dget obs (waves r) = Some w /\ first_wave w a /\ last_wave w b /\ (a <= lo)%Q /\ (hi <= b)%Q.
