(** Model of the elements of a line model and of the solution which is reported for each line:
    RedshiftLibrary/src/lib/linemodel/lmeltlistvector.cpp:47-76, 88-97, 116-130 and 145-183 (elements made from a line catalogue), 207-237 (findElementIndex),
    RedshiftLibrary/src/lib/line/catalog.cpp:91-106 (ConvertToGroupList), RedshiftLibrary/src/lib/linemodel/elementparam.cpp:50-73,
    RedshiftLibrary/src/lib/linemodel/element.cpp:68-103, RedshiftLibrary/RedshiftLibrary/linemodel/elementparam.h:106-146 and 160-172,
    RedshiftLibrary/src/lib/linemodel/linemodelsolution.cpp, and
    RedshiftLibrary/src/lib/linemodel/linemodelfitting.cpp:700-785 (LoadModelSolution), 792-962 (GetModelSolution), 1232-1251 (getFluxDirectIntegration).
    Exact rationals; [None] is a NaN, -1 is undefIdx, "undefined" is undefStr.  The supports of the elements in each spectrum, recomputed at the end of
    LoadModelSolution, are not modelled. *)
From Coq Require Import String.
From Verif Require Import Base RangeModel F64 RulesModel LyaModel.
Open Scope Q_scope.

Definition num := option Q.
Inductive ltype := Emission | Absorption.
Definition same_type (a b : ltype) : bool := match a, b with Emission, Emission | Absorption, Absorption => true | _, _ => false end.
Record line := mkLine { l_id : Z; l_name : string; l_type : ltype; l_group : string; l_strid : string; l_offset : Q; l_profile : profile }.
(** TLineModelElementParam; [t_ids] is m_LinesIds (the last one assigned first) *)
Record elt := mkElt { t_lines : list line; t_em : bool; t_vem : num; t_vab : num; t_amp : list num; t_std : list num; t_off : list num;
  t_ids : list (Z * nat); t_info : string; t_poly : num * num * num; t_asym : list nat; t_limit : Q }.

(** ** the elements *)
Definition nan3 : num * num * num := (None, None, None).
Fixpoint ids_from (i : nat) (l : list line) (m : list (Z * nat)) : list (Z * nat) :=
  match l with [] => m | x :: t => ids_from (S i) t ((l_id x, i) :: m) end.
Fixpoint asym_from (i : nat) (l : list line) : list nat :=
  match l with
  | [] => []
  | x :: t => if (isAsym (l_profile x) || isSymIgm (l_profile x))%bool then i :: asym_from (S i) t else asym_from (S i) t
  end.
(** elementparam.cpp:50-95; an empty vector throws *)
Definition new_param (lines : list line) (vem vab : num) : res elt :=
  match lines with
  | [] => Throw INTERNAL_ERROR
  | x :: _ => Ok (mkElt lines (same_type (l_type x) Emission) vem vab (map (fun _ => None) lines) (map (fun _ => None) lines)
                  (map (fun y => Some (l_offset y)) lines) (ids_from 0 lines []) "undefined" nan3 (asym_from 0 lines) 1)
  end.
(** catalog.cpp:91-106: std::map from the group name to its lines *)
Fixpoint push_group (g : string) (x : line) (m : list (string * list line)) : list (string * list line) :=
  match m with
  | [] => [(g, [x])]
  | (k, l) :: t => if String.eqb g k then (k, l ++ [x])%list :: t else if String.ltb g k then (g, [x]) :: m else (k, l) :: push_group g x t
  end.
Definition group_name (x : line) : string := if String.eqb (l_group x) "undefined" then ("single_" ++ l_strid x)%string else l_group x.
Fixpoint groups (l : list line) (m : list (string * list line)) : list (string * list line) :=
  match l with [] => m | x :: t => groups t (push_group (group_name x) x m) end.
(** ElementComposition, lmeltlistvector.cpp:47-76 and 145-183; the catalogue is a std::map, its lines come by increasing identifier *)
Inductive composition := Default | EmissionAbsorption | OneLine.
Definition partition_lines (c : composition) (cat : list line) : list (list line) :=
  match c with
  | Default => map snd (groups cat [])
  | EmissionAbsorption => filter (fun l => negb (Nat.eqb (List.length l) 0)) [filter (fun x => same_type (l_type x) Absorption) cat; filter (fun x => same_type (l_type x) Emission) cat]
  | OneLine => map (fun x => [x]) cat
  end.
Fixpoint new_params (vem vab : num) (l : list (list line)) : res (list elt) :=
  match l with [] => Ok [] | x :: t => do e <- new_param x vem vab; do r <- new_params vem vab t; Ok (e :: r) end.
Definition LoadCatalog (c : composition) (cat : list line) (vem vab : num) : res (list elt) := new_params vem vab (partition_lines c cat).

(** element.cpp:80-87 *)
Fixpoint lookup_id (m : list (Z * nat)) (id : Z) : option nat :=
  match m with [] => None | (i, n) :: t => if Z.eqb i id then Some n else lookup_id t id end.
Definition getLineIndex (e : elt) (id : Z) : option nat := lookup_id (t_ids e) id.
(** lmeltlistvector.cpp:207-219 *)
Fixpoint find_from (k : nat) (es : list elt) (id : Z) : option (nat * nat) :=
  match es with [] => None | e :: t => match getLineIndex e id with Some i => Some (k, i) | None => find_from (S k) t id end end.
Definition findElementIndex (es : list elt) (id : Z) : option (nat * nat) := find_from 0 es id.
(** lmeltlistvector.cpp:221-237 with nType_All, element.cpp:89-103 *)
Fixpoint find_tag (k : nat) (es : list elt) (tag : string) : option nat :=
  match es with [] => None | e :: t => if existsb (fun x => contains tag (l_name x)) (t_lines e) then Some k else find_tag (S k) t tag end.

(** ** the state *)
Record st := mkSt { s_z : num; s_elts : list elt; s_out : list (list bool); s_allout : list bool }.
(** elementparam.cpp:115-119 *)
Definition isAllAmplitudesNull (e : elt) : bool := negb (existsb positive (t_amp e)).
(** lmeltlistvector.cpp:88-97 *)
Fixpoint nddl (es : list elt) (out : list bool) : res nat :=
  match es with
  | [] => Ok 0%nat
  | e :: t => match out with [] => UB | o :: r => do n <- nddl t r; Ok (if (negb o && negb (isAllAmplitudesNull e))%bool then S n else n) end
  end.
Definition outside (s : st) (k i : nat) : res bool := do l <- vget (s_out s) k; vget l i.
Definition getVelocity (e : elt) : num := if t_em e then t_vem e else t_vab e.

(** ** the solution: one row by line of the catalogue *)
Record row := mkRow { r_id : Z; r_elt : Z; r_amp : num; r_std : num; r_snr : f64; r_rms : num; r_lobs : num; r_vel : num; r_off : num;
  r_cont : num; r_contstd : num; r_sigma : num; r_flux : num; r_fluxerr : num; r_di : num; r_dierr : f64; r_out : bool; r_info : string; r_poly : num * num * num }.
(** linemodelsolution.cpp:43-70 *)
Definition empty_row (id : Z) : row := mkRow id (-1) None None NaN None None None None None None None None None None NaN true "undefined" nan3.
(** SNR and logarithm of the flux of a complex, by the profiles and by direct integration *)
Record complex := mkCx { c_snr : f64; c_lf : f64; c_snrdi : f64; c_lfdi : f64 }.
Record solution := mkSol { o_rows : list row; o_ha : complex; o_oii : complex; o_nddl : nat; o_lya : num * num * num; o_igm : Z;
  o_vem : num; o_vab : num; o_z : num }.

(** what the solution is made from: the continuum under a line and its error, the residual under an element, the sums of a direct integration
    (flux, variance), the observed position; in each spectrum: whether the line is outside, its width and the flux of its profile; square root and logarithm *)
Record env := mkEnv { v_cont : nat -> nat -> num * num; v_rms : nat -> num; v_di : list (nat * nat) -> bool -> Q * Q; v_pos : nat -> nat -> num -> num;
  v_nspec : nat; v_outs : nat -> nat -> nat -> bool; v_sigma : nat -> nat -> nat -> Q; v_lflux : nat -> nat -> nat -> Q;
  v_sqrt : Q -> Q; v_log : Q -> Q; v_rules : bool; v_offsets : bool }.

Definition nmul (a b : num) : num := match a, b with Some x, Some y => Some (x * y) | _, _ => None end.
Definition nadd (a b : num) : num := match a, b with Some x, Some y => Some (x + y) | _, _ => None end.
Definition nabs (a : num) : num := option_map Qabs a.
(** division of doubles; the sign of a null divisor is positive *)
Definition fquo (a b : num) : f64 :=
  match a, b with
  | Some x, Some y => if Qeq_bool y 0 then (if Qeq_bool x 0 then NaN else if Qltb 0 x then PInf else NInf) else Fin (x / y)
  | _, _ => NaN
  end.
(** std::max(0.0, x): a NaN gives 0 *)
Definition max0 (a : num) : Q := match a with Some x => if Qltb 0 x then x else 0 | None => 0 end.
Definition nonneg (a : num) : bool := match a with Some x => Qle_bool 0 x | None => false end.
(** linemodelfitting.cpp:1232-1251 *)
Definition direct (v : env) (l : list (nat * nat)) (sub : bool) : num * num :=
  let (f, e) := v_di v l sub in if Qle_bool e 0 then (None, None) else (Some f, Some (Qabs f / v_sqrt v e)).
(** 884-902: the first spectrum which has the line *)
Fixpoint first_spec (v : env) (k i : nat) (n s : nat) : option nat :=
  match n with O => None | S m => if v_outs v s k i then first_spec v k i m (S s) else Some s end.

Definition is_ha (name : string) : bool := (String.eqb name "Halpha" || String.eqb name "[NII]a" || String.eqb name "[NII]b")%bool.
Definition is_oii (name : string) : bool := (String.eqb name "[OII]3726" || String.eqb name "[OII]3729")%bool.
(** eIdx_ha, subeIdx_ha, flux_ha, fluxVar_ha and the values set so far *)
Record acc := mkAcc { a_list : list (nat * nat); a_flux : Q; a_var : Q; a_res : complex }.
Definition no_complex : complex := mkCx NaN NaN NaN NaN.
Definition lflux (v : env) (a : num) : f64 := match a with Some x => if Qltb 0 x then Fin (v_log v x) else NInf | None => NInf end.
(** 911-954 *)
Definition add_complex (v : env) (n : nat) (k i : nat) (flux err : num) (a : acc) : acc :=
  let l := (a_list a ++ [(k, i)])%list in
  let f := match flux with Some x => if Qltb 0 x then a_flux a + x else a_flux a | None => a_flux a end in
  let w := match err with Some x => if Qltb 0 x then a_var a + x * x else a_var a | None => a_var a end in
  let r := if Nat.eqb (List.length l) n
           then let (di, snr) := direct v l false in
                mkCx (fquo (Some f) (Some (v_sqrt v w))) (lflux v (Some f)) (match snr with Some x => Fin x | None => NaN end) (lflux v di)
           else a_res a in
  mkAcc l f w r.

(** 824-959: one line *)
Definition one_row (v : env) (full : bool) (s : st) (x : line) (ha oii : acc) : res (row * acc * acc) :=
  let r0 := empty_row (l_id x) in
  match findElementIndex (s_elts s) (l_id x) with
  | None => Ok (r0, ha, oii)
  | Some (k, i) =>
      let rk := mkRow (l_id x) (Z.of_nat k) None None NaN None None None None None None None None None None NaN true "undefined" nan3 in
      do o <- outside s k i;
      if o then Ok (rk, ha, oii)
      else
        do e <- vget (s_elts s) k; do amp <- vget (t_amp e) i; do err <- vget (t_std e) i; do off <- vget (t_off e) i;
        let snr := if v_rules v then fquo (nabs amp) err else NaN in
        let pos := v_pos v k i (s_z s) in
        if full then
          let poly := if v_offsets v then t_poly e else nan3 in
          let (cont, cstd) := v_cont v k i in
          let em := same_type (l_type x) Emission in
          do g <- (if nonneg amp then
                     let err' := if em then err else nadd (nmul err (Some (max0 cont))) (nmul amp cstd) in
                     let amp' := if em then amp else nmul amp (Some (- max0 cont)) in
                     match first_spec v k i (v_nspec v) 0 with
                     | None => Throw INTERNAL_ERROR
                     | Some p => Ok (Some (v_sigma v p k i), nmul amp' (Some (v_lflux v p k i)), nmul err' (Some (v_lflux v p k i)))
                     end
                   else Ok (None, None, None));
          let '(sigma, flux, ferr) := g in
          let (di, disnr) := direct v [(k, i)] em in
          let ha := if (em && is_ha (l_name x))%bool then add_complex v 3 k i flux ferr ha else ha in
          let oii := if (em && is_oii (l_name x))%bool then add_complex v 2 k i flux ferr oii else oii in
          Ok (mkRow (l_id x) (Z.of_nat k) amp err snr (v_rms v k) pos (getVelocity e) off cont cstd sigma flux ferr di (fquo (nabs di) disnr) false (t_info e) poly, ha, oii)
        else Ok (mkRow (l_id x) (Z.of_nat k) amp err snr None pos (getVelocity e) off None None None None None None NaN false (t_info e) nan3, ha, oii)
  end.
Fixpoint all_rows (v : env) (full : bool) (s : st) (cat : list line) (ha oii : acc) : res (list row * acc * acc) :=
  match cat with
  | [] => Ok ([], ha, oii)
  | x :: t => do (y, oii) <- one_row v full s x ha oii; do (z, oii) <- all_rows v full s t (snd y) oii; Ok (fst y :: fst z, snd z, oii)
  end.
(** elementparam.h:118-127 *)
Definition first_asym (e : elt) : res (option profile) := match t_asym e with [] => Ok None | i :: _ => do x <- vget (t_lines e) i; Ok (Some (l_profile x)) end.
Definition lya_params (p : option profile) : num * num * num :=
  match p with Some (Fit _ a _) | Some (Fixed _ a _) => (Some (a_sigma a), Some (a_alpha a), Some (a_delta a)) | _ => nan3 end.
Definition lya_igm (p : option profile) : Z := match p with Some (Igm _ _ c _) => c | _ => (-1)%Z end.
(** 792-981 *)
Definition GetModelSolution (v : env) (full : bool) (cat : list line) (s : st) : res solution :=
  do e0 <- vget (s_elts s) 0; do n <- nddl (s_elts s) (s_allout s);
  do (y, oii) <- all_rows v full s cat (mkAcc [] 0 0 no_complex) (mkAcc [] 0 0 no_complex);
  do p <- match find_tag 0 (s_elts s) "LyAE" with Some k => do e <- vget (s_elts s) k; first_asym e | None => Ok None end;
  Ok (mkSol (fst y) (a_res (snd y)) (a_res oii) n (lya_params p) (lya_igm p) (t_vem e0) (t_vab e0) (s_z s)).

(** ** loading a solution *)
(** element.cpp:68-78, elementparam.h:222-225, linemodelfitting.cpp:710-715 *)
Definition reset_elt (e : elt) : elt :=
  mkElt (t_lines e) (t_em e) None None (map (fun _ => None) (t_lines e)) (map (fun _ => None) (t_lines e)) (map (fun x => Some (l_offset x)) (t_lines e))
        (t_ids e) "undefined" nan3 (t_asym e) (t_limit e).
(** elementparam.h:160-172 with a nominal amplitude of 1: the absorption lines are limited *)
Definition limited (e : elt) (a : num) : num :=
  match a with Some x => if (negb (t_em e) && Qltb 0 (t_limit e) && Qltb (t_limit e) x)%bool then Some (t_limit e) else a | None => None end.
Definition set_line (e : elt) (i : nat) (amp err off : num) : res elt :=
  do a <- vset (t_amp e) i (limited e amp); do d <- vset (t_std e) i err; do o <- vset (t_off e) i off;
  Ok (mkElt (t_lines e) (t_em e) (t_vem e) (t_vab e) a d o (t_ids e) (t_info e) (t_poly e) (t_asym e) (t_limit e)).
Definition set_elt (offsets : bool) (e : elt) (r : row) : elt :=
  mkElt (t_lines e) (t_em e) (if t_em e then r_vel r else t_vem e) (if t_em e then t_vab e else r_vel r) (t_amp e) (t_std e) (t_off e)
        (t_ids e) (r_info r) (if offsets then r_poly r else t_poly e) (t_asym e) (t_limit e).
Fixpoint load_rows (offsets : bool) (rows : list row) (done : list bool) (es : list elt) : res (list elt) :=
  match rows with
  | [] => Ok es
  | r :: t =>
      if (Z.eqb (r_elt r) (-1) || r_out r)%bool then load_rows offsets t done es
      else
        do e <- vget es (Z.to_nat (r_elt r));
        match getLineIndex e (r_id r) with
        | None => load_rows offsets t done es
        | Some i =>
            do e <- set_line e i (r_amp r) (r_std r) (r_off r);
            do d <- vget done (Z.to_nat (r_elt r));
            if d then do es <- vset es (Z.to_nat (r_elt r)) e; load_rows offsets t done es
            else do es <- vset es (Z.to_nat (r_elt r)) (set_elt offsets e r); do done <- vset done (Z.to_nat (r_elt r)) true; load_rows offsets t done es
        end
  end.
(** the profiles: elementparam.h:128-158 *)
Definition map_profiles (f : profile -> profile) (e : elt) : elt :=
  mkElt (map (fun x => mkLine (l_id x) (l_name x) (l_type x) (l_group x) (l_strid x) (l_offset x) (f (l_profile x))) (t_lines e)) (t_em e) (t_vem e) (t_vab e)
        (t_amp e) (t_std e) (t_off e) (t_ids e) (t_info e) (t_poly e) (t_asym e) (t_limit e).
Definition asym_of (a : num * num * num) (p : profile) : profile :=
  match a with (Some s, Some al, Some d) => SetAsymParams p (mkA s al d) | _ => p end.
(** 700-785.  SetAsymfitParams and SetSymIgmParams only change the ASYMFIT and SYMIGM profiles, all of which are registered: [map_profiles].
    Asymmetry parameters some of which only are NaN are not modelled (they are all numbers or all NaN in a solution) *)
Definition LoadModelSolution (offsets : bool) (o : solution) (s : st) : res st :=
  let es := map reset_elt (s_elts s) in
  do es <- load_rows offsets (o_rows o) (map (fun _ => false) es) es;
  let es := match o_lya o, find_tag 0 es "LyAE" with
            | (Some _, Some _, Some _), Some k => firstn k es ++ match skipn k es with [] => [] | e :: t => map_profiles (asym_of (o_lya o)) e :: t end
            | _, _ => es
            end%list in
  let es := if Z.eqb (o_igm o) (-1) then es else map (map_profiles (fun p => SetSymIgmParams p (o_igm o) (o_z o))) es in
  Ok (mkSt (o_z o) es (s_out s) (s_allout s)).
