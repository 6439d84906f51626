(** Vocabulary of C90, independent of the code of the functions. *)
From Coq Require Import String.
From Verif Require Import Base F64 RatSpec LyaModel.
Open Scope Q_scope.

(** the profile of line i of element k *)
Definition prof (es : list elt) (k i : nat) : option profile :=
  match nth_error es k with Some e => match nth_error (e_lines e) i with Some x => Some (snd x) | None => None end | None => None end.
Definition line_id (es : list elt) (k i : nat) : option Z :=
  match nth_error es k with Some e => match nth_error (e_lines e) i with Some x => Some (fst x) | None => None end | None => None end.
(** line i of element k is one of the lines registered as asymmetric or absorbed when the element was made *)
Definition marked (es : list elt) (k i : nat) : Prop := exists e, nth_error es k = Some e /\ In i (e_asym e).
(** the first of them *)
Definition first_marked (es : list elt) (k i : nat) : Prop :=
  (exists e t, nth_error es k = Some e /\ e_asym e = i :: t) /\ forall j e, (j < k)%nat -> nth_error es j = Some e -> e_asym e = [].
Definition no_marked (es : list elt) : Prop := forall e, In e es -> e_asym e = [].
(** the registered indices are those of the asymmetric and SYMIGM lines at least, each once *)
Definition wf_elt (e : elt) : Prop :=
  NoDup (e_asym e) /\ (forall i, In i (e_asym e) -> (i < List.length (e_lines e))%nat) /\
  forall i x, nth_error (e_lines e) i = Some x -> (isAsym (snd x) || isSymIgm (snd x))%bool = true -> In i (e_asym e).
Definition wf (es : list elt) : Prop := forall e, In e es -> wf_elt e.
(** es' is es but for the profiles *)
Definition same_shape (es es' : list elt) : Prop :=
  Forall2 (fun e e' => e_asym e' = e_asym e /\ e_allout e' = e_allout e /\ e_out e' = e_out e /\ map fst (e_lines e') = map fst (e_lines e)) es es'.
(** es with the profile of every line changed by f (element, line, profile): [remap_prof], [remap_shape] *)
Fixpoint mapi {A B} (f : nat -> A -> B) (n : nat) (l : list A) : list B := match l with [] => [] | x :: t => f n x :: mapi f (S n) t end.
Definition remap (f : nat -> nat -> profile -> profile) (es : list elt) : list elt :=
  mapi (fun k e => with_lines e (mapi (fun i x => (fst x, f k i (snd x))) 0 (e_lines e))) 0 es.
(** the absorption of a SYMIGM line: the curve of the continuum, not fitted, or to be fitted *)
Definition igm_of (cont : option Z) (z : Q) (p : profile) : profile :=
  match p, cont with
  | Igm n _ _ _, Some j => Igm n false j (Some z)
  | Igm n _ c z', None => Igm n true c z'
  | _, _ => p
  end.
(** the profile of a line when the one of the catalogue is ref: fitted ones may be made fixed, and fixed ones fitted, with the same parameters *)
Definition chosen (f : flags) (ref : profile) : profile :=
  match ref with
  | Fit n a c => if f_disable f then Fixed n a c else ref
  | Fixed n a c => if f_force f then Fit n a c else ref
  | _ => ref
  end.
(** parameters of the asymmetric lines of element k0, absorption of the lines of the elements ks *)
Definition put_asym (k0 : nat) (a : asym) (k : nat) (p : profile) : profile :=
  match p with Fit n _ c => if Nat.eqb k k0 then Fit n a c else p | _ => p end.
Definition put_igm (ks : list nat) (c : Z) (z : Q) (k : nat) (p : profile) : profile :=
  match p with Igm n f _ _ => if existsb (Nat.eqb k) ks then Igm n f c (Some z) else p | _ => p end.
(** the merit of the parameters a of line i of element k: with a positive amplitude only *)
Definition asym_key (v : env) (k i : nat) (es : list elt) (a : asym) : f64 :=
  let es := remap (fun k' _ p => put_asym k a k' p) es in
  match nth_error es k with
  | Some e => match v_amp v k e (Some i) with Some x => if Qltb 0 x then v_rms v es [k] else NaN | None => NaN end
  | None => NaN
  end.
(** the merit of the absorption curve c for the elements ks: one positive amplitude at least *)
Definition igm_key (v : env) (ks : list nat) (z : Q) (es : list elt) (c : Z) : f64 :=
  let es := remap (fun k _ p => put_igm ks c z k p) es in
  if existsb (fun k => match nth_error es k with Some e => match v_amp v k e None with Some x => Qltb 0 x | None => false end | None => false end) ks
  then v_rms v es ks else NaN.
(** the first least merit, or a default *)
Definition best_or {A} (key : A -> f64) (l : list A) (d x : A) : Prop := first_least key l x \/ (none_counts key l /\ x = d).
(** element k has a registered SYMIGM line to be fitted, inside the range *)
Definition fits_igm (es : list elt) (k : nat) : Prop :=
  exists e i p, nth_error es k = Some e /\ e_allout e = false /\ In i (e_asym e) /\ prof es k i = Some p /\ isSymIgmFit p = true /\ nth i (e_out e) false = false.
(** the same lines, whatever the state left by the previous redshift: the parameters and the flag of the absorption, the parameters of the fitted profiles *)
Definition similar_p (p q : profile) : Prop :=
  match p, q with
  | Igm n _ _ _, Igm n' _ _ _ => n = n'
  | Fit n _ c, Fit n' _ c' => n = n' /\ c = c'
  | _, _ => p = q
  end.
Definition similar (es es' : list elt) : Prop :=
  same_shape es es' /\ forall k i p q, prof es k i = Some p -> prof es' k i = Some q ->
    (first_marked es k i -> isAsym p = true -> isAsym q = true) /\ (~ (first_marked es k i /\ isAsym p = true) -> similar_p p q).
(** what the profiles become when they are set from the catalogue: (k0, i0) is the first registered line, ref its profile in the catalogue *)
Definition set_fun (f : flags) (cont : option Z) (z : Q) (ref : profile) (k0 i0 k i : nat) (p : profile) : profile :=
  igm_of cont z (if (Nat.eqb k k0 && Nat.eqb i i0 && isAsym p)%bool then chosen f ref else p).
(** all the parameters tried: for each delta, each width and each asymmetry in turn *)
Definition all_params (deltas widths asyms : list Q) : list asym :=
  flat_map (fun d => flat_map (fun w => map (fun a => mkA w a d) asyms) widths) deltas.
(** the values of a parameter: from the minimum, step by step, up to half a step above the maximum *)
Definition values (l : limits) (vs : list Q) : Prop :=
  (forall i x, nth_error vs i = Some x -> x == l_min l + l_step l * inject_Z (Z.of_nat i)) /\
  forall i, (i < List.length vs)%nat <-> l_min l + l_step l * inject_Z (Z.of_nat i) <= l_max l + l_step l * (1 # 2).
