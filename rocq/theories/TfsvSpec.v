(** Vocabulary for C85. *)
From Coq Require Import String.
From Verif Require Import Base PhotModel PhotSpec TfsvModel.
Open Scope Q_scope.

(** the dust is fitted for a component: not without continuum, and not for the continuum when all the components are fitted *)
Definition dusty (t : spc_type) (c : etype) (dust : bool) : bool := match t, c with _, NoContinuum => false | All, ContinuumOnly => false | _, _ => dust end.
(** m has, for each template, the result of its fit with the spectra and the template of type c *)
Definition right_results (fit : list etype -> bool -> string -> etype -> bool -> bool -> res fitresult) (nspc : nat) (log : bool) (names : list string) (c : etype) (ext dust : bool) (m : smap fitresult) : Prop :=
  ordered m /\ (forall n, In n (keys m) <-> In n names) /\ forall n r, bound m n r -> fit (repeat c nspc) log n c ext dust = Ok r.
(** the chi squares at index i of the redshifts *)
Definition chi_at (r : fitresult) (i : nat) (c : Q) : Prop := exists x, nth_error (fr_rows r) i = Some x /\ r_chi x = Some c.
(** i is the first index of the redshift z *)
Definition first_index (zs : list Q) (z : Q) (i : nat) : Prop := (exists x, nth_error zs i = Some x /\ x == z) /\ forall j x, (j < i)%nat -> nth_error zs j = Some x -> ~ x == z.
(** template n, with result r, has the least chi square at index i, and the first name among those *)
Definition best_template (m : smap fitresult) (i : nat) (n : string) (r : fitresult) (c : Q) : Prop :=
  bound m n r /\ chi_at r i c /\ forall n' r' c', bound m n' r' -> chi_at r' i c' -> c <= c' /\ (String.ltb n' n = true -> c < c').
(** the candidate k at redshift z is that template, with the values of its fit at index i *)
Definition right_candidate (m : smap fitresult) (zs : list Q) (id : string) (z : Q) (k : cand) : Prop :=
  exists i r x, first_index zs z i /\ best_template m i (k_tpl k) r (k_merit k) /\ nth_error (fr_rows r) i = Some x /\ k_id k = id /\ k_z k = z /\
    k_phot k = r_phot x /\ k_igm k = r_igm x /\ k_ebmv k = r_ebmv x /\ k_amp k = r_amp x /\ k_err k = r_err x /\ k_dtm k = r_dtm x /\ k_mtm k = r_mtm x /\ k_snr k = r_snr x /\ k_prior k = r_prior x.
(** f: the models of the candidate, one for each spectrum *)
Definition right_models (model : nat -> bool -> string -> Q -> Q -> Z -> Q -> res (list Q)) (nspc : nat) (k : cand) (f : list (list Q)) : Prop :=
  List.length f = nspc /\ forall i g, nth_error f i = Some g -> model i false (k_tpl k) (k_z k) (k_ebmv k) (k_igm k) (k_amp k) = Ok g.
(** all the templates are fitted at the same redshifts *)
Definition same_redshifts (m : smap fitresult) (zs : list Q) : Prop := forall n r, bound m n r -> List.length (fr_rows r) = List.length zs /\ (List.length (fr_zs r) <= List.length zs)%nat /\ forall i a b, nth_error (fr_zs r) i = Some a -> nth_error zs i = Some b -> a == b.
(** cols: the columns of the table of r, dust by dust and igm by igm *)
Definition table_columns (r : fitresult) (cols : list (list Q)) : Prop :=
  exists nI nG, (forall t, nth_error (fr_tab r) 0 = Some t -> nI = List.length t /\ forall c, nth_error t 0 = Some c -> nG = List.length c) /\ (fr_tab r = [] -> nI = 0%nat) /\ (nI = 0%nat -> nG = 0%nat) /\
    List.length cols = (nI * nG)%nat /\
    forall i g, (i < nI)%nat -> (g < nG)%nat -> exists col, nth_error cols (i * nG + g) = Some col /\ List.length col = List.length (fr_zs r) /\
      forall k v, nth_error col k = Some v -> exists t c, nth_error (fr_tab r) k = Some t /\ nth_error t i = Some c /\ nth_error c g = Some v.
(** the array given to the pdf: the columns of all the templates by name, a constant prior for each, the redshifts of the first *)
Definition right_array (constPrior : nat -> list Q) (m : smap fitresult) (a : array) : Prop :=
  exists colss, Forall2 (fun p cols => table_columns (snd p) cols) m colss /\ a_chi a = List.concat colss /\
    a_prior a = List.concat (map (fun p => map (fun _ => constPrior (List.length (fr_zs (snd (fst p))))) (snd p)) (combine m colss)) /\
    (forall n r m', m = (n, r) :: m' -> fr_zs r <> [] -> a_zs a = fr_zs r) /\
    ((forall n r, bound m n r -> ~ fr_cst r == -(1)) -> forall n r, bound m n r -> a_cst a == fr_cst r).
(** a result over the redshifts zs, with finite chi squares and a rectangular table *)
Definition good_fit (zs : list Q) (cst : Q) (r : fitresult) : Prop :=
  fr_zs r = zs /\ fr_cst r == cst /\ List.length (fr_rows r) = List.length zs /\ (forall x, In x (fr_rows r) -> r_chi x <> None) /\ List.length (fr_tab r) = List.length zs /\
  exists nI nG, forall t, In t (fr_tab r) -> List.length t = nI /\ forall c, In c t -> List.length c = nG.
