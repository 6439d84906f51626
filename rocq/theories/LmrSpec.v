(** Specification vocabulary for C78: the table read row by row. *)
From Verif Require Import Base RangeModel RangeSpec ZGridModel ZGridSpec LmrModel.
Open Scope Q_scope.

(** everything known at one redshift *)
Record row := mkRow { w_chi2 : flt; w_marg : flt; w_sol : list lsol; w_csol : option nat; w_cchi2 : flt; w_cmarg : flt;
  w_cont : list flt; w_rchi2 : list flt; w_rmarg : list flt; w_strong : list bool; w_ha : list bool; w_nl : list Z; w_pl : list flt }.

(** [cols] has one column per entry of the rows' lists, each holding that entry of every row *)
Definition matrix {A} (cols : list (list A)) (n : nat) (f : row -> list A) (rows : list row) : Prop :=
  length cols = n /\ (forall w, In w rows -> length (f w) = n) /\
  forall j col, nth_error cols j = Some col -> map Some col = map (fun w => nth_error (f w) j) rows.

(** the object holds the table [rows], one row per redshift, [nT] continuum templates and [nR] template ratios *)
Definition table (r : lmres) (nT nR : nat) (rows : list row) : Prop :=
  r_chi2 r = map w_chi2 rows /\ r_marg r = map w_marg rows /\ r_sol r = map w_sol rows /\ r_csol r = map w_csol rows /\
  r_cchi2 r = map w_cchi2 rows /\ r_cmarg r = map w_cmarg rows /\ matrix (r_cont r) nT w_cont rows /\
  matrix (r_rchi2 r) nR w_rchi2 rows /\ matrix (r_rmarg r) nR w_rmarg rows /\ matrix (r_strong r) nR w_strong rows /\
  matrix (r_ha r) nR w_ha rows /\ matrix (r_nl r) nR w_nl rows /\ matrix (r_pl r) nR w_pl rows.

(** a row not computed *)
Definition no_row (nT nR : nat) : row :=
  mkRow None None [] None None None (repeat (Some dbl_max) nT) (repeat (Some dbl_max) nR) (repeat (Some 0) nR)
    (repeat false nR) (repeat false nR) (repeat 0%Z nR) (repeat (Some 0) nR).

(** the row is what one call of fit() gave; the merits of the continuum templates are those of the call or, if the call
    does not give them, [prev] *)
Definition from_call (o : out) (prev : list flt) (w : row) : Prop :=
  w_chi2 w = o_chi2 o /\ w_marg w = o_marg o /\ w_sol w = o_sol o /\ w_csol w = o_csol o /\ w_cchi2 w = o_cchi2 o /\
  w_cmarg w = o_cmarg o /\ w_cont w = match o_cont o with Some m => m | None => prev end /\
  match o_ratio o with
  | None => w_rchi2 w = [] /\ w_rmarg w = [] /\ w_strong w = [] /\ w_ha w = [] /\ w_nl w = [] /\ w_pl w = []
  | Some q => w_rchi2 w = q_chi2 q /\ w_rmarg w = q_marg q /\ w_strong w = q_strong q /\ w_ha w = q_ha q /\
              w_nl w = q_nl q /\ w_pl w = q_pl q
  end.

(** the fit gives lists of the sizes the table was made for *)
Definition shaped (nT nR : nat) (o : out) : Prop :=
  (forall m, o_cont o = Some m -> length m = nT) /\
  match o_ratio o with
  | None => nR = 0%nat
  | Some q => (0 < nR)%nat /\ length (q_chi2 q) = nR /\ length (q_marg q) = nR /\ length (q_strong q) = nR /\
              length (q_ha q) = nR /\ length (q_nl q) = nR /\ length (q_pl q) = nR
  end.

(** the windows, widened by epsilon, do not overlap *)
Definition apart (subs : list (list Q)) : Prop :=
  forall i j s t x, (i < j)%nat -> nth_error subs i = Some s -> nth_error subs j = Some t -> replaced s x -> ~ replaced t x.
(** the redshifts of the coarse grid are more than epsilon apart *)
Definition spaced (z : list Q) : Prop :=
  forall i x y, nth_error z i = Some x -> nth_error z (S i) = Some y -> x + eps < y.
(** the list with its i-th element replaced *)
Definition upd {A} (l : list A) (i : nat) (x : A) : list A := firstn i l ++ x :: skipn (S i) l.
(** the list with [ndup] elements replaced, from [idx], by [count] times [d] *)
Definition spl {A} (l : list A) (idx ndup count : nat) (d : A) : list A := firstn idx l ++ repeat d count ++ skipn (idx + ndup) l.
