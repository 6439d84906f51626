(** Vocabulary of C91. *)
From Coq Require Import String Sorting.Permutation.
From Verif Require Import Base F64 RulesModel LyaModel SolModel.
Open Scope Q_scope.

(** line i of element k *)
Definition at_line (es : list elt) (k i : nat) (x : line) : Prop := exists e, nth_error es k = Some e /\ nth_error (t_lines e) i = Some x.
Definition distinct_ids (l : list line) : Prop := NoDup (map l_id l).
(** an element as the constructor makes it, whatever was fitted since *)
Definition elt_ok (e : elt) : Prop :=
  t_lines e <> [] /\ t_ids e = ids_from 0 (t_lines e) [] /\ t_asym e = asym_from 0 (t_lines e) /\
  List.length (t_amp e) = List.length (t_lines e) /\ List.length (t_std e) = List.length (t_lines e) /\ List.length (t_off e) = List.length (t_lines e).
Definition elts_ok (es : list elt) : Prop := Forall elt_ok es /\ distinct_ids (concat (map t_lines es)).
Definition st_ok (s : st) : Prop :=
  elts_ok (s_elts s) /\ s_elts s <> [] /\ Forall2 (fun e l => List.length l = List.length (t_lines e)) (s_elts s) (s_out s) /\ List.length (s_allout s) = List.length (s_elts s).
(** whether line i of element k is outside of the range in every spectrum *)
Definition is_out (s : st) (k i : nat) : bool := nth i (nth k (s_out s) []) true.
Definition val (l : list num) (i : nat) : num := nth i l None.

(** the line (k, i) of the catalogue line x is measured at the current redshift *)
Definition measured (s : st) (x : line) (k i : nat) (e : elt) : Prop :=
  nth_error (s_elts s) k = Some e /\ (exists y, nth_error (t_lines e) i = Some y /\ l_id y = l_id x) /\ is_out s k i = false.
Definition absent (es : list elt) (x : line) : Prop := forall k i y, at_line es k i y -> l_id y <> l_id x.

(** an amplitude which is a number and not negative *)
Definition usable (a : num) : Prop := exists x, a = Some x /\ 0 <= x.
(** spectrum p is the first one where the line is in the range *)
Definition seen_in (v : env) (k i p : nat) : Prop := (p < v_nspec v)%nat /\ v_outs v p k i = false /\ forall q, (q < p)%nat -> v_outs v q k i = true.
(** the continuum under an absorption line, null rather than negative *)
Definition above (c : num) (m : Q) : Prop := match c with Some x => (0 < x /\ m = x) \/ (x <= 0 /\ m = 0) | None => m = 0 end.

(** flux of the profile: A F for an emission line, - A C F for an absorption line; nothing for a negative or NaN amplitude *)
Definition flux_ok (v : env) (em : bool) (k i : nat) (amp err cont cstd sigma flux ferr : num) : Prop :=
  (usable amp -> exists p, seen_in v k i p /\ sigma = Some (v_sigma v p k i) /\
     (em = true -> flux = nmul amp (Some (v_lflux v p k i)) /\ ferr = nmul err (Some (v_lflux v p k i))) /\
     (em = false -> exists m, above cont m /\ flux = nmul (nmul amp (Some (- m))) (Some (v_lflux v p k i)) /\
                    ferr = nmul (nadd (nmul err (Some m)) (nmul amp cstd)) (Some (v_lflux v p k i)))) /\
  (~ usable amp -> sigma = None /\ flux = None /\ ferr = None).
(** the direct integration: flux and its error, none without a positive variance; the error is 0/0 for a null flux *)
Definition direct_ok (v : env) (l : list (nat * nat)) (sub : bool) (flux : num) (err : f64) : Prop :=
  (snd (v_di v l sub) <= 0 -> flux = None /\ err = NaN) /\
  (0 < snd (v_di v l sub) -> flux = Some (fst (v_di v l sub)) /\ err = fquo (Some (Qabs (fst (v_di v l sub)))) (Some (Qabs (fst (v_di v l sub)) / v_sqrt v (snd (v_di v l sub))))).
(** the row of a catalogue line *)
Definition row_ok (v : env) (full : bool) (s : st) (x : line) (r : row) : Prop :=
  (absent (s_elts s) x -> r = empty_row (l_id x)) /\
  (forall k i y, at_line (s_elts s) k i y -> l_id y = l_id x -> is_out s k i = true ->
     r_elt r = Z.of_nat k /\ r = mkRow (l_id x) (r_elt r) None None NaN None None None None None None None None None None NaN true "undefined" nan3) /\
  (forall k i e, measured s x k i e ->
     r_id r = l_id x /\ r_elt r = Z.of_nat k /\ r_out r = false /\ r_info r = t_info e /\
     r_amp r = val (t_amp e) i /\ r_std r = val (t_std e) i /\ r_off r = val (t_off e) i /\
     r_vel r = (if t_em e then t_vem e else t_vab e) /\ r_lobs r = v_pos v k i (s_z s) /\
     r_snr r = (if v_rules v then fquo (nabs (val (t_amp e) i)) (val (t_std e) i) else NaN) /\
     (full = false -> r_rms r = None /\ r_cont r = None /\ r_contstd r = None /\ r_sigma r = None /\ r_flux r = None /\ r_fluxerr r = None /\ r_di r = None /\ r_dierr r = NaN /\ r_poly r = nan3) /\
     (full = true -> r_rms r = v_rms v k /\ (r_cont r, r_contstd r) = v_cont v k i /\ r_poly r = (if v_offsets v then t_poly e else nan3) /\
        flux_ok v (same_type (l_type x) Emission) k i (r_amp r) (r_std r) (r_cont r) (r_contstd r) (r_sigma r) (r_flux r) (r_fluxerr r) /\
        direct_ok v [(k, i)] (same_type (l_type x) Emission) (r_di r) (r_dierr r))).

(** the measured emission lines of a complex, in the order of the catalogue, with their rows *)
Fixpoint members (s : st) (named : string -> bool) (cat : list line) (rows : list row) : list (nat * nat * row) :=
  match cat, rows with
  | x :: t, r :: u =>
      let m := members s named t u in
      match findElementIndex (s_elts s) (l_id x) with
      | Some (k, i) => if (same_type (l_type x) Emission && named (l_name x) && negb (is_out s k i))%bool then ((k, i), r) :: m else m
      | None => m
      end
  | _, _ => []
  end.
(** sum of what is a positive number *)
Fixpoint sum_pos (f : Q -> Q) (l : list num) : Q :=
  match l with [] => 0 | Some x :: t => if Qltb 0 x then f x + sum_pos f t else sum_pos f t | None :: t => sum_pos f t end.
(** a complex of n lines: nothing below n; else the flux of the first n ones *)
Definition complex_ok (v : env) (n : nat) (m : list (nat * nat * row)) (c : complex) : Prop :=
  ((List.length m < n)%nat -> c = no_complex) /\
  ((n <= List.length m)%nat -> exists f w, f == sum_pos (fun x => x) (map (fun y => r_flux (snd y)) (firstn n m)) /\ w == sum_pos (fun x => x * x) (map (fun y => r_fluxerr (snd y)) (firstn n m)) /\
     c_snr c = fquo (Some f) (Some (v_sqrt v w)) /\ c_lf c = (if Qltb 0 f then Fin (v_log v f) else NInf) /\
     let d := v_di v (map fst (firstn n m)) false in
     (snd d <= 0 -> c_snrdi c = NaN /\ c_lfdi c = NInf) /\
     (0 < snd d -> c_snrdi c = Fin (Qabs (fst d) / v_sqrt v (snd d)) /\ c_lfdi c = (if Qltb 0 (fst d) then Fin (v_log v (fst d)) else NInf))).

(** an element with a positive amplitude *)
Definition in_use (e : elt) : bool := existsb (fun a => match a with Some x => Qltb 0 x | None => false end) (t_amp e).

(** the asymmetric and absorbed profiles *)
Definition marked (x : line) : bool := (isAsym (l_profile x) || isSymIgm (l_profile x))%bool.
Definition unmarked (e : elt) : Prop := forall x, In x (t_lines e) -> marked x = false.
Definition first_marked_line (e : elt) (p : profile) : Prop :=
  exists i x, nth_error (t_lines e) i = Some x /\ marked x = true /\ (forall j y, (j < i)%nat -> nth_error (t_lines e) j = Some y -> marked y = false) /\ l_profile x = p.
(** the first element with a line whose name contains LyAE *)
Definition lya_elt (es : list elt) (k : nat) (e : elt) : Prop :=
  nth_error es k = Some e /\ (exists x, In x (t_lines e) /\ contains "LyAE" (l_name x) = true) /\
  forall j f y, (j < k)%nat -> nth_error es j = Some f -> In y (t_lines f) -> contains "LyAE" (l_name y) = false.
(** the reported parameters of Lya *)
Definition lya_ok (es : list elt) (o : solution) : Prop :=
  ((forall e x, In e es -> In x (t_lines e) -> contains "LyAE" (l_name x) = false) -> o_lya o = nan3 /\ o_igm o = (-1)%Z) /\
  (forall k e, lya_elt es k e -> (unmarked e -> o_lya o = nan3 /\ o_igm o = (-1)%Z) /\
     forall p, first_marked_line e p -> match p with
       | Fit _ a _ | Fixed _ a _ => o_lya o = (Some (a_sigma a), Some (a_alpha a), Some (a_delta a)) /\ o_igm o = (-1)%Z
       | Igm _ _ c _ => o_lya o = nan3 /\ o_igm o = c
       | _ => False
       end).

(** ** loading a solution *)
Definition same_line (x y : line) : Prop :=
  l_id x = l_id y /\ l_name x = l_name y /\ l_type x = l_type y /\ l_group x = l_group y /\ l_strid x = l_strid y /\ l_offset x = l_offset y.
(** two states of elements made from the same lines *)
Definition twin (s s2 : st) : Prop :=
  Forall2 (fun e e2 => elt_ok e2 /\ Forall2 same_line (t_lines e) (t_lines e2) /\ t_em e2 = t_em e /\ t_limit e2 = t_limit e) (s_elts s) (s_elts s2).
(** line y of element k, place i, has a measure in the solution *)
Definition reported (cat : list line) (s : st) (k i : nat) (y : line) : Prop := In (l_id y) (map l_id cat) /\ is_out s k i = false.
(** an absorption amplitude does not pass its limit *)
Definition capped (e : elt) (a b : num) : Prop :=
  match a with
  | None => b = None
  | Some x => (t_em e = true \/ t_limit e <= 0 \/ x <= t_limit e -> b = Some x) /\ (t_em e = false -> 0 < t_limit e -> t_limit e < x -> b = Some (t_limit e))
  end.
Definition restored (poly : bool) (cat : list line) (s : st) (k : nat) (e e' : elt) : Prop :=
  t_em e' = t_em e /\ List.length (t_lines e') = List.length (t_lines e) /\
  (forall i y, nth_error (t_lines e) i = Some y ->
     (exists y', nth_error (t_lines e') i = Some y' /\ same_line y y') /\
     (reported cat s k i y -> capped e (val (t_amp e) i) (val (t_amp e') i) /\ val (t_std e') i = val (t_std e) i /\ val (t_off e') i = val (t_off e) i) /\
     (~ reported cat s k i y -> val (t_amp e') i = None /\ val (t_std e') i = None /\ val (t_off e') i = Some (l_offset y))) /\
  ((exists i y, nth_error (t_lines e) i = Some y /\ reported cat s k i y) -> getVelocity e' = getVelocity e /\ t_info e' = t_info e /\ t_poly e' = (if poly then t_poly e else nan3)) /\
  (~ (exists i y, nth_error (t_lines e) i = Some y /\ reported cat s k i y) -> getVelocity e' = None /\ t_info e' = "undefined"%string /\ t_poly e' = nan3) /\
  (if t_em e then t_vab e' else t_vem e') = None.

(** the profile of a loaded line *)
Definition loaded_profile (o : solution) (lya : bool) (p : profile) : profile :=
  match p with
  | Fit n a c => match o_lya o with (Some s, Some al, Some d) => if lya then Fit n (mkA s al d) c else p | _ => p end
  | Igm n f i z => if Z.eqb (o_igm o) (-1) then p else Igm n f (o_igm o) (o_z o)
  | _ => p
  end.
(** two rows with the same values, but those of the full solution ([p]: the polynomial too) *)
Definition same_row (p : bool) (r r' : row) : Prop :=
  r_id r' = r_id r /\ r_elt r' = r_elt r /\ r_out r' = r_out r /\ r_amp r' = r_amp r /\ r_std r' = r_std r /\ r_vel r' = r_vel r /\ r_off r' = r_off r /\ r_info r' = r_info r /\ r_lobs r' = r_lobs r /\
  (p = true -> r_poly r' = r_poly r).
(** the absorption amplitudes are below their limit *)
Definition within_limits (s : st) : Prop := forall e a, In e (s_elts s) -> In (Some a) (t_amp e) -> t_em e = false -> a <= t_limit e.
