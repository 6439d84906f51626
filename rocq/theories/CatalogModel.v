(** Model of the line catalogs: RedshiftLibrary/src/lib/line/catalog.cpp, RedshiftLibrary/RedshiftLibrary/line/catalog.h,
    line.cpp, line.h, linedetected.h, lineRatioCatalog.cpp.  Amplitudes and positions are exact rationals. *)
From Coq Require Import String Ascii.
From Verif Require Import Base StoreModel.
Open Scope string_scope.

(** line.h:59-73 *)
Inductive etype := Absorption | Emission | AllTypes.
Inductive eforce := Weak | Strong | AllForces.
Definition etype_eqb (a b : etype) : bool :=
  match a, b with Absorption, Absorption | Emission, Emission | AllTypes, AllTypes => true | _, _ => false end.
Definition eforce_eqb (a b : eforce) : bool :=
  match a, b with Weak, Weak | Strong, Strong | AllForces, AllForces => true | _, _ => false end.
(** the profiles by class: CLineProfileASYM is ASYM and ASYMFIXED (lineprofile.h:92); parameters (sigma, alpha, delta)
    and centering method; the IGM correction of SYMIGM is not modelled *)
Inductive profile :=
| PSYM | PLOR | PSYMIGM
| PASYM (params : Q * Q * Q) (centering : string)
| PASYMFIT (params : Q * Q * Q) (centering : string).
(** lineprofile.h:118-120, lineprofileASYM.h:84-85, lineprofileASYMFIT.h:60-61 *)
Definition isAsymFit (p : profile) : bool := match p with PASYMFIT _ _ => true | _ => false end.
Definition isAsymFixed (p : profile) : bool := match p with PASYM _ _ => true | _ => false end.

(** line.h:150-175; the profile pointer is null in a default constructed line.  The velocity fields are not modelled. *)
Record line := mkLine { ln_id : Z; ln_strid : string; ln_name : string; ln_type : etype; ln_force : eforce;
  ln_group : string; ln_pos : Q; ln_amp : Q; ln_profile : option profile }.
Definition with_amp (l : line) (a : Q) : line :=
  mkLine (ln_id l) (ln_strid l) (ln_name l) (ln_type l) (ln_force l) (ln_group l) (ln_pos l) a (ln_profile l).
Definition with_profile (l : line) (p : profile) : line :=
  mkLine (ln_id l) (ln_strid l) (ln_name l) (ln_type l) (ln_force l) (ln_group l) (ln_pos l) (ln_amp l) (Some p).
(** copy construction/assignment dereferences the profile pointer (line.cpp:98-127) *)
Definition copy (l : line) : res line := match ln_profile l with Some _ => Ok l | None => UB end.

(** std::map<Int32, CLine>, in key order *)
Definition lmap := list (Z * line).
Fixpoint lfind (m : lmap) (k : Z) : option line :=
  match m with [] => None | (u, v) :: r => if (u =? k)%Z then Some v else lfind r k end.
Fixpoint lset (m : lmap) (k : Z) (v : line) : lmap :=
  match m with
  | [] => [(k, v)]
  | (u, w) :: r => if (u =? k)%Z then (u, v) :: r else if (k <? u)%Z then (k, v) :: (u, w) :: r else (u, w) :: lset r k v
  end.

(** Add, catalog.h:74 *)
Definition Add (m : lmap) (l : line) : res lmap := do c <- copy l; Ok (lset m (ln_id l) c).

(** string2Type, string2Force, line.cpp:57-83; front() of an empty string is UB *)
Definition string2Type (s : string) : res etype :=
  if String.eqb s "no" then Ok AllTypes else
  match s with
  | EmptyString => UB
  | String c _ => if Ascii.eqb c "E" then Ok Emission else if Ascii.eqb c "A" then Ok Absorption else Throw BAD_LINE_TYPE
  end.
Definition string2Force (s : string) : res eforce :=
  if String.eqb s "no" then Ok AllForces else
  match s with
  | EmptyString => UB
  | String c _ => if Ascii.eqb c "W" then Ok Weak else if Ascii.eqb c "S" then Ok Strong else Throw BAD_LINE_FORCE
  end.
(** ETypeString, EForceString (line.cpp:49-55) with .at (line.h:102-103) *)
Definition GetTypeString (t : etype) : res string :=
  match t with Absorption => Ok "Abs" | Emission => Ok "Em" | AllTypes => Ok "All" end.
Definition GetForceString (f : eforce) : res string :=
  match f with Weak => Ok "Weak" | Strong => Ok "Strong" | AllForces => Throw STD_out_of_range end.

(** GetFilteredList, catalog.cpp:61-78 *)
Fixpoint filter_loop (t : etype) (f : eforce) (l acc : lmap) : res lmap :=
  match l with
  | [] => Ok acc
  | (id, x) :: r =>
      if ((etype_eqb t AllTypes || etype_eqb t (ln_type x)) && (eforce_eqb f AllForces || eforce_eqb f (ln_force x)))%bool
      then do c <- copy x; filter_loop t f r (lset acc id c)
      else filter_loop t f r acc
  end.
Definition GetFilteredList (m : lmap) (t : etype) (f : eforce) : res lmap := filter_loop t f m [].
(** catalog.cpp:80-88 *)
Definition GetFilteredListS (m : lmap) (t f : string) : res lmap :=
  do t' <- string2Type t; do f' <- string2Force f; GetFilteredList m t' f'.

(** undefStr, defaults.h:17 *)
Definition undefStr : string := "undefined".
(** catalog.cpp:98-102 *)
Definition group_name (l : line) : string :=
  if String.eqb (ln_group l) undefStr then "single_" ++ ln_strid l else ln_group l.
(** ConvertToGroupList, catalog.cpp:90-106 (the iteration order of the result is not modelled) *)
Fixpoint group_loop (l : lmap) (acc : smap (list line)) : res (smap (list line)) :=
  match l with
  | [] => Ok acc
  | (_, x) :: r =>
      do c <- copy x;
      let g := group_name x in
      let old := match mfind acc g with Some v => v | None => [] end in
      group_loop r (mset acc g (old ++ [c])%list)
  end.
Definition ConvertToGroupList (l : lmap) : res (smap (list line)) := group_loop l [].

(** profileName.find("ASYMFIXED") != npos *)
Definition has_ASYMFIXED (s : string) : bool := match String.index 0 "ASYMFIXED" s with Some _ => true | None => false end.
(** AddLineFromParams, catalog.cpp:108-150: the profile *)
Definition make_profile (name : string) (asym : Q * Q * Q) : res profile :=
  if has_ASYMFIXED name then Ok (PASYM asym "mean")
  else if String.eqb name "SYM" then Ok PSYM
  else if String.eqb name "LOR" then Ok PLOR
  else if String.eqb name "ASYM" then Ok (PASYM (1, 9 # 2, 0)%Q "none")
  else if String.eqb name "ASYMFIT" then Ok (PASYMFIT (2, 2, 0)%Q "mean")
  else if String.eqb name "SYMIGM" then Ok PSYMIGM
  else Throw INTERNAL_ERROR.
Definition AddLineFromParams (m : lmap) (name : string) (pos : Q) (type force prof : string) (asym : Q * Q * Q)
  (group : string) (amp : Q) (id : Z) (strid : string) : res lmap :=
  do t <- string2Type type; do f <- string2Force force; do p <- make_profile prof asym;
  Add m (mkLine id strid name t f group pos amp (Some p)).

(** setLineAmplitude, catalog.cpp:152-165 *)
Fixpoint lupdate (m : lmap) (k : Z) (f : line -> line) : lmap :=
  match m with [] => [] | (u, v) :: r => if (u =? k)%Z then (u, f v) :: r else (u, v) :: lupdate r k f end.
Definition setLineAmplitude (m : lmap) (id : Z) (a : Q) : res lmap :=
  match lfind m id with Some _ => Ok (lupdate m id (fun l => with_amp l a)) | None => Throw INTERNAL_ERROR end.

(** setProfileAndParams, line.cpp:147-167 *)
Definition profile_with_params (name : string) (asym : Q * Q * Q) : res profile :=
  if has_ASYMFIXED name then Ok (PASYM asym "mean")
  else if String.eqb name "SYM" then Ok PSYM
  else if String.eqb name "LOR" then Ok PLOR
  else if String.eqb name "ASYM" then Ok (PASYM asym "none")
  else if String.eqb name "ASYMFIT" then Ok (PASYMFIT asym "mean")
  else if String.eqb name "SYMIGM" then Ok PSYMIGM
  else Throw INTERNAL_ERROR.
(** setAsymProfileAndParams, catalog.cpp:173-182; GetProfile throws on a null pointer *)
Fixpoint setAsymProfileAndParams (m : lmap) (name : string) (asym : Q * Q * Q) : res lmap :=
  match m with
  | [] => Ok []
  | (u, v) :: r =>
      do v' <- (match ln_profile v with
                | None => Throw INTERNAL_ERROR
                | Some p => if (isAsymFit p || isAsymFixed p)%bool
                            then do q <- profile_with_params name asym; Ok (with_profile v q) else Ok v
                end);
      do r' <- setAsymProfileAndParams r name asym; Ok ((u, v') :: r')
  end.
(** convertLineProfiles2SYMIGM, catalog.cpp:184-197; RESTLAMBDA_LYA = 1216 (defaults.h:27), lya_em = "LyAE" (linetags.h:74) *)
Definition igm_absorbed (l : line) : bool :=
  (etype_eqb (ln_type l) Emission && (String.eqb (ln_name l) "LyAE" || Qltb (ln_pos l) 1216))%bool.
Definition convertLineProfiles2SYMIGM (m : lmap) : lmap :=
  map (fun p => (fst p, if igm_absorbed (snd p) then with_profile (snd p) PSYMIGM else snd p)) m.

(** CLineRatioCatalog constructor, lineRatioCatalog.cpp:44-50 *)
Definition ratio_lines (m : lmap) : lmap := map (fun p => (fst p, with_amp (snd p) 0%Q)) m.
(** addVelocity, getVelocity, lineRatioCatalog.cpp:52-63 *)
Definition addVelocity (v : smap Q) (name : string) (x : Q) : res (smap Q) :=
  match mfind v name with Some _ => Throw INTERNAL_ERROR | None => Ok (mset v name x) end.
Definition getVelocity (v : smap Q) (name : string) : res Q :=
  match mfind v name with Some x => Ok x | None => Throw STD_out_of_range end.

(** ** Detected lines: (position, amplitude) decide the order (linedetected.h:69-74); [d_tag] is everything else *)
Record detected := mkDet { d_pos : Q; d_amp : Q; d_tag : nat }.
Definition det_lt (a b : detected) : bool :=
  if Qeq_bool (d_pos a) (d_pos b) then Qltb (d_amp a) (d_amp b) else Qltb (d_pos a) (d_pos b).
Definition dmap := list (Z * detected).
Fixpoint dset (m : dmap) (k : Z) (v : detected) : dmap :=
  match m with
  | [] => [(k, v)]
  | (u, w) :: r => if (u =? k)%Z then (u, v) :: r else if (k <? u)%Z then (k, v) :: (u, w) :: r else (u, w) :: dset r k v
  end.
(** CLineDetectedCatalog::Add, catalog.h:123 *)
Definition det_Add (m : dmap) (d : detected) : dmap := dset m (Z.of_nat (length m)) d.
(** Sort, catalog.cpp:199-212: std::sort is any function [sort] of the values;
    the keys are assigned in increasing order *)
Fixpoint number (i : Z) (l : list detected) : dmap := match l with [] => [] | x :: t => (i, x) :: number (i + 1) t end.
Definition det_Sort (sort : list detected -> list detected) (m : dmap) : dmap := number 0 (sort (map snd m)).
