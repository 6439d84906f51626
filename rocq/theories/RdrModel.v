(** Model of the loading of the spectra of a source: pylibamazed/AbstractSpectrumReader.py (init), Filter.py,
    FilterLoader.py, Container.py, ASCIISpectrumReader.py, and of the parts of ParametersChecker.py,
    ParametersConverter.py, ParametersAccessor.py and Parameters.py they rely on.
    Wavelengths, fluxes are exact rationals or NaN ([None]); rounding is not modelled.  Columns are numpy arrays
    (pandas does not realign them).  The line spread function and the photometry are not modelled. *)
From Coq Require Import String.
From Verif Require Import Base.
Open Scope string_scope.

(** Python exceptions: APIException with its code, any other one *)
Inductive perr := Api (code : string) | Python.
Inductive pres (A : Type) := Val (a : A) | Err (e : perr).
Arguments Val {A} _. Arguments Err {A} _.
Definition pbind {A B} (r : pres A) (f : A -> pres B) : pres B := match r with Val a => f a | Err e => Err e end.
Notation "'let!' x := r 'in' b" := (pbind r (fun x => b)) (at level 200, x binder, r at level 100, b at level 200).
Fixpoint pmap {A B} (f : A -> pres B) (l : list A) : pres (list B) :=
  match l with [] => Val [] | a :: t => let! b := f a in let! r := pmap f t in Val (b :: r) end.

(** ** Containers (Container.py): dictionaries, in the order of the first insertions *)
Definition dict (A : Type) := list (string * A).
Fixpoint dget {A} (k : string) (d : dict A) : option A :=
  match d with [] => None | (k', v) :: r => if k =? k' then Some v else dget k r end.
Fixpoint dput {A} (k : string) (v : A) (d : dict A) : dict A :=
  match d with [] => [(k, v)] | (k', w) :: r => if k =? k' then (k, v) :: r else (k', w) :: dput k v r end.
Definition dkeys {A} (d : dict A) : list string := map fst d.
Definition dmem {A} (k : string) (d : dict A) : bool := match dget k d with Some _ => true | None => false end.

(** ** Tables *)
Definition cell := option Q.
(** a column of integers or of floats *)
Inductive column := Ints (l : list Z) | Floats (l : list cell).
Definition clen (c : column) : nat := match c with Ints l => List.length l | Floats l => List.length l end.
Definition cells (c : column) : list cell := match c with Ints l => map (fun z => Some (inject_Z z)) l | Floats l => l end.
Record table := mkTable { t_len : nat; t_cols : dict column }.

(** rows kept by a mask *)
Fixpoint select {A} (m : list bool) (l : list A) : list A :=
  match m, l with b :: m, a :: l => if b : bool then a :: select m l else select m l | _, _ => [] end.
Definition cselect (m : list bool) (c : column) : column :=
  match c with Ints l => Ints (select m l) | Floats l => Floats (select m l) end.
(** df[mask] *)
Definition rows_of (m : list bool) (t : table) : table :=
  mkTable (List.length (select m m)) (map (fun c => (fst c, cselect m (snd c))) (t_cols t)).

(** ** Filters (Filter.py) *)
(** JSON values: int, float, list of numbers *)
Inductive value := VInt (z : Z) | VFloat (q : Q) | VList (l : list Q).
Record filt := mkFilt { f_key : string; f_instr : string; f_value : value }.
(** Filter.py:56; "~^" is not there *)
Definition allowed_instructions : list string := ["<"; ">"; "<="; ">="; "="; "in"; "~in"; "!="; "&"; "~&"; "0&"; "^"].
Definition smem (x : string) (l : list string) : bool := existsb (String.eqb x) l.
(** :143-150 *)
Definition check_instruction (i : string) : pres unit :=
  if smem i allowed_instructions then Val tt else Err (Api "INVALID_FILTER_INSTRUCTION").

(** the right operand of a comparison, one per row: a list must have the length of the column *)
Definition operands (v : value) (n : nat) : pres (list Q) :=
  match v with
  | VInt z => Val (repeat (inject_Z z) n)
  | VFloat q => Val (repeat q n)
  | VList l => if Nat.eqb (List.length l) n then Val l else Err Python
  end.
Fixpoint zip_with {A B C} (f : A -> B -> C) (l : list A) (r : list B) : list C :=
  match l, r with a :: l, b :: r => f a b :: zip_with f l r | _, _ => [] end.
(** a comparison with NaN is false *)
Definition compare (f : Q -> Q -> bool) (v : value) (c : column) : pres (list bool) :=
  let! o := operands v (clen c) in
  Val (zip_with (fun (x : cell) q => match x with Some a => f a q | None => false end) (cells c) o).
(** Series.isin: a scalar is a TypeError *)
Definition isin (v : value) (c : column) : pres (list bool) :=
  match v with
  | VList l => Val (map (fun x : cell => match x with Some a => existsb (Qeq_bool a) l | None => false end) (cells c))
  | _ => Err Python
  end.
(** a bitwise operation of integers; with floats it is a TypeError (also here when the value is a list) *)
Definition bitwise (f : Z -> Z -> bool) (v : value) (c : column) : pres (list bool) :=
  match c, v with Ints l, VInt z => Val (map (fun a => f a z) l) | _, _ => Err Python end.
Definition negate (r : pres (list bool)) : pres (list bool) := let! m := r in Val (map negb m).
(** :86-141 *)
Definition comparator (i : string) (v : value) (c : column) : pres (list bool) :=
  if i =? "<" then compare Qltb v c
  else if i =? ">" then compare (fun a b => Qltb b a) v c
  else if i =? ">=" then compare (fun a b => Qle_bool b a) v c
  else if i =? "<=" then compare Qle_bool v c
  else if i =? "=" then compare Qeq_bool v c
  else if i =? "!=" then negate (compare Qeq_bool v c)
  else if i =? "in" then isin v c
  else if i =? "~in" then negate (isin v c)
  else if i =? "&" then bitwise (fun a b => negb (Z.land a b =? 0)%Z) v c
  else if i =? "~&" then negate (bitwise (fun a b => negb (Z.land a b =? 0)%Z) v c)
  else if i =? "0&" then bitwise (fun a b => (a =? 0)%Z || negb (Z.land a b =? 0)%Z) v c
  else if i =? "^" then bitwise (fun a b => negb (Z.lxor a b =? 0)%Z) v c
  else if i =? "~^" then negate (bitwise (fun a b => negb (Z.lxor a b =? 0)%Z) v c)
  else Err Python.
(** :77-84 *)
Definition compliant_lines (t : table) (f : filt) : pres (list bool) :=
  match dget (f_key f) (t_cols t) with
  | None => Err (Api "INVALID_FILTER_KEY")
  | Some c => comparator (f_instr f) (f_value f) c
  end.
(** Utils.py:6-9 *)
Definition cumulate (m : list bool) (l : list (list bool)) : list bool := fold_left (zip_with andb) l m.
(** Filter.py:175-179 *)
Definition apply (fs : list filt) (t : table) : pres table :=
  let! ms := pmap (compliant_lines t) fs in
  match ms with [] => Val t | m :: r => Val (rows_of (cumulate m r) t) end.

(** ** Parameters *)
Inductive multi := Mono | Merge | Full.
(** "lambdaRange": a range, or a range per observation *)
Inductive lrange := Range (lo hi : Q) | PerObs (d : dict (Q * Q)).
(** [p_air] is the value of "airVacuumMethod", "" when absent *)
Record params := mkParams { p_multi : multi; p_range : lrange; p_filters : option (list filt); p_cols : list string; p_air : string }.
(** ParametersAccessor.py:49-58; KeyError, TypeError *)
Definition get_lambda_range (p : params) (obs : string) : pres (Q * Q) :=
  match p_multi p, p_range p with
  | Full, PerObs d => match dget obs d with Some r => Val r | None => Err Python end
  | Full, Range _ _ => Err Python
  | _, Range lo hi => Val (lo, hi)
  | _, PerObs _ => Err Python
  end.
(** ParametersAccessor.py:456-460 *)
Definition get_observation_ids (p : params) : list string := match p_range p with PerObs d => dkeys d | Range _ _ => [""] end.
(** ParametersChecker.py:125-140 *)
Definition check_filters (p : params) : pres unit :=
  match p_filters p with
  | None | Some [] => Val tt
  | Some fs => if forallb (fun f => smem (f_key f) (["Wave"; "Flux"; "Err"] ++ p_cols p)%list) fs then Val tt
               else Err (Api "INVALID_PARAMETER_FILE")
  end.
(** FilterLoader.py:82-89 *)
Definition get_filters (p : params) : pres (option (list filt)) :=
  match p_filters p with
  | None => Val None
  | Some fs => let! _ := pmap (fun f => check_instruction (f_instr f)) fs in Val (Some fs)
  end.
(** the top-level entry for the conversion method: the one key accepted by the schema of each version
    (jsonschema-v1/general.json:60, jsonschema-v2/general.json:58; no other key is accepted), its renaming
    (rename_params_v1_to_treed.csv:36; none in version 2), and the reading (ParametersAccessor.py:60-61) *)
Definition air_key (version : nat) : string := if Nat.eqb version 1 then "airvacuum_method" else "airvacuumMethod".
Definition converted (version : nat) (k : string) : string :=
  if Nat.eqb version 1 then (if k =? "airvacuum_method" then "airVacuumMethod" else k) else k.
Definition schema_check (version : nat) (d : dict string) : pres unit :=
  if forallb (fun k => k =? air_key version) (dkeys d) then Val tt else Err (Api "INVALID_PARAMETER_FILE").
Definition get_airvacuum_method (version : nat) (d : dict string) : pres string :=
  let! _ := schema_check version d in
  Val (match dget "airVacuumMethod" (map (fun e => (converted version (fst e), snd e)) d) with Some m => m | None => "" end).

(** Parameters.py:221-241; 10 ^ 9 is a bitwise exclusive or *)
Definition ten_xor_nine : Q := inject_Z (Z.lxor 10 9).
Definition get_lambda_range_min (p : params) : pres Q :=
  match p_multi p with
  | Full => fold_left (fun r obs => let! ret := r in let! cur := get_lambda_range p obs in
                       Val (if Qltb (fst cur) ret then fst cur else ret)) (get_observation_ids p) (Val ten_xor_nine)
  | _ => let! r := get_lambda_range p "" in Val (fst r)
  end.
Definition get_lambda_range_max (p : params) : pres Q :=
  match p_multi p with
  | Full => fold_left (fun r obs => let! ret := r in let! cur := get_lambda_range p obs in
                       Val (if Qltb ret (snd cur) then snd cur else ret)) (get_observation_ids p) (Val 0%Q)
  | _ => let! r := get_lambda_range p "" in Val (fst r)
  end.

(** ** The reader (AbstractSpectrumReader.py) *)
Record reader := mkReader { waves : dict (list cell); fluxes : dict (list cell); errors : dict (list cell);
                            others : dict (dict column); w_air : bool }.

(** :297-303 *)
Definition sizes_are_consistent (r : reader) : bool :=
  let n := List.length (waves r) in
  forallb (fun d => Nat.eqb (List.length (snd d)) n) (others r) && Nat.eqb (List.length (fluxes r)) n && Nat.eqb (List.length (errors r)) n.
(** :305-314 *)
Definition obs_ids_are_consistent (r : reader) : bool :=
  forallb (fun k => forallb (fun d => dmem k (snd d)) (others r) && dmem k (fluxes r) && dmem k (errors r)) (dkeys (waves r)).

Definition nth_col (d : dict (list cell)) (k : string) : list cell := match dget k d with Some l => l | None => [] end.
(** :451-463; arrays of different lengths: ValueError.  An additional column replaces one of the same name. *)
Fixpoint add_others (obs : string) (n : nat) (ot : dict (dict column)) (cols : dict column) : pres (dict column) :=
  match ot with
  | [] => Val cols
  | (name, d) :: r =>
      match dget obs d with
      | None => add_others obs n r cols
      | Some c => if Nat.eqb (clen c) n then add_others obs n r (dput name c cols) else Err Python
      end
  end.
Definition full_table (r : reader) (obs : string) : pres table :=
  let w := nth_col (waves r) obs in let f := nth_col (fluxes r) obs in let e := nth_col (errors r) obs in
  let n := List.length w in
  if Nat.eqb (List.length f) n && Nat.eqb (List.length e) n then
    let! cols := add_others obs n (others r) [("waves", Floats w); ("fluxes", Floats f); ("errors", Floats e)] in
    Val (mkTable n cols)
  else Err Python.
Definition merge_spectrum_in_dataframe (r : reader) : pres (dict table) :=
  pmap (fun obs => let! t := full_table r obs in Val (obs, t)) (dkeys (waves r)).
(** :261-265 *)
Definition apply_filters (fs : option (list filt)) (d : dict table) : pres (dict table) :=
  match fs with
  | None => Val d
  | Some fs => pmap (fun e => let! t := apply fs (snd e) in Val (fst e, t)) d
  end.

(** comparisons of floats, NaN included *)
Definition cle (a b : cell) : bool := match a, b with Some x, Some y => Qle_bool x y | _, _ => false end.
(** :267-287: the observations for which the range of the parameters is not contained in the one of the
    (unfiltered) wavelengths *)
Fixpoint check_wavelengths (p : params) (r : reader) (obs : list string) : pres (list string) :=
  match obs with
  | [] => Val []
  | o :: t =>
      let! lr := get_lambda_range p o in
      match nth_col (waves r) o with
      | [] => Err (Api "INVALID_SPECTRUM")
      | w0 :: ws =>
          let inside := cle w0 (Some (fst lr)) && cle (Some (snd lr)) (last ws w0) in
          let! l := check_wavelengths p r t in
          Val (if inside then l else o :: l)
      end
  end.

(** :394-410: the method used and whether the warning is raised *)
Definition corrected_airvacuum_method (method : string) (air : bool) : string * bool :=
  let m := if method =? "default" then "morton2000" else method in
  if (m =? "") && air then ("morton2000", false)
  else if negb (m =? "") && negb air then ("", true)
  else (m, false).

Definition row := (cell * cell * cell)%type.
Definition wave (r : row) : cell := fst (fst r).
Definition col (t : table) (k : string) : list cell := match dget k (t_cols t) with Some c => cells c | None => [] end.
Fixpoint zip3 (a b c : list cell) : list row :=
  match a, b, c with x :: a, y :: b, z :: c => (x, y, z) :: zip3 a b c | _, _, _ => [] end.
Definition rows (t : table) : list row := zip3 (col t "waves") (col t "fluxes") (col t "errors").

(** ** Merging (:352-374) *)
Section Merging.
(** sort_values(["wave"]) with its default algorithm: any order of the rows of a same wavelength *)
Variable sort_rows : list (Q * (cell * cell)) -> list (Q * (cell * cell)).
(** rows with a wavelength which is a number *)
Fixpoint numbers (l : list row) : option (list (Q * (cell * cell))) :=
  match l with
  | [] => Some []
  | (Some w, f, e) :: t => match numbers t with Some r => Some ((w, (f, e)) :: r) | None => None end
  | (None, _, _) :: _ => None
  end.
(** pd.factorize: the values by order of first appearance *)
Fixpoint uniques (l seen : list Q) : list Q :=
  match l with
  | [] => []
  | w :: t => if existsb (Qeq_bool w) seen then uniques t seen else w :: uniques t (w :: seen)
  end.
Definition count (w : Q) (l : list Q) : nat := List.length (filter (Qeq_bool w) l).
(** np.concatenate([i for i in map(np.arange, np.bincount(codes))]) *)
Definition ranks (l : list Q) : list nat := concat (map (fun u => seq 0 (count u l)) (uniques l [])).
Definition tick : Q := 1 # 10000000000.
Definition shifted (w : Q) (k : nat) : Q := (w + inject_Z (Z.of_nat k) * tick)%Q.
Fixpoint increasing (l : list Q) : bool :=
  match l with a :: ((b :: _) as t) => Qltb a b && increasing t | _ => true end.
Definition merge (l : list row) : pres (list row) :=
  match numbers l with
  | None => Err Python                                  (* a negative code: ValueError *)
  | Some [] => Err Python                               (* np.concatenate of nothing: ValueError *)
  | Some n =>
      let s := sort_rows n in
      let ws := zip_with shifted (map fst s) (ranks (map fst s)) in
      if negb (Nat.eqb (List.length (uniques ws [])) (List.length s)) then Err (Api "UNALLOWED_DUPLICATES")
      else if negb (increasing ws) then Err (Api "UNSORTED_ARRAY")
      else Val (zip_with (fun w x => (Some w, fst (snd x), snd (snd x))) ws s)
  end.

(** what [init] leaves: the spectra given to the library, the tables, the observations with a range warning,
    the conversion method, its warning *)
Record loaded := mkLoaded { spectra : dict (list row); tables : dict table; tighter : list string; conversion : string; ignored : bool }.

(** :337-384 *)
Definition add_cspectra (p : params) (ts : dict table) : pres (dict (list row)) :=
  match p_multi p with
  | Mono => match ts with
            | [("", t)] => Val [("", rows t)]
            | _ => Err (Api "INVALID_NAME")
            end
  | Merge => let! l := merge (concat (map (fun e => rows (snd e)) ts)) in Val [("", l)]
  | Full => Val (map (fun e => (fst e, rows (snd e))) ts)
  end.
(** :230-256 *)
Definition init (p : params) (r : reader) : pres loaded :=
  if negb (sizes_are_consistent r) then Err (Api "INVALID_SPECTRUM")
  else if negb (obs_ids_are_consistent r) then Err (Api "INVALID_SPECTRUM")
  else
    let! ts := merge_spectrum_in_dataframe r in
    let! fs := get_filters p in
    let! ts := apply_filters fs ts in
    let! w := check_wavelengths p r (dkeys (waves r)) in
    let! sp := add_cspectra p ts in
    (* :254-255, the LSF is set for the observations of the parameters: KeyError *)
    if forallb (fun o => dmem o sp) (get_observation_ids p) then
      let c := corrected_airvacuum_method (p_air p) (w_air r) in
      Val (mkLoaded sp ts w (fst c) (snd c))
    else Err Python.
End Merging.

(** ASCIISpectrumReader.py:64-71, 81-92 (each one is given the name of the observation) *)
Definition no_data : reader := mkReader [] [] [] [] false.
Definition set_air (r : reader) : reader := mkReader (waves r) (fluxes r) (errors r) (others r) true.
Definition ascii_load (r : reader) (obs : string) (w f e : list cell) (cols : dict column) : reader :=
  mkReader (dput "" w (waves r)) (dput "" f (fluxes r)) (dput "" e (errors r))
    (fold_left (fun ot c => dput (fst c) (dput obs (snd c) (match dget (fst c) ot with Some d => d | None => [] end)) ot) cols (others r))
    (w_air r).
