(** Vocabulary of C89, independent of the code of the functions. *)
From Coq Require Import String.
From Verif Require Import Base CalzModel FitStoreModel FitStoreSpec PreModel.
Open Scope Q_scope.

(** a is a better fit than b: smaller merit, or the same one and a more significant amplitude *)
Definition better (a b : fitrec) : Prop := v_merit a < v_merit b \/ (v_merit a == v_merit b /\ Qabs (v_ampsig b) < Qabs (v_ampsig a)).
Definition as_good (a b : fitrec) : Prop := v_merit a < v_merit b \/ (v_merit a == v_merit b /\ Qabs (v_ampsig b) <= Qabs (v_ampsig a)).
(** r is the first of the best fits of the list *)
Definition best_fit (l : list fitrec) (r : fitrec) : Prop :=
  exists before after, l = (before ++ r :: after)%list /\ (forall y, In y before -> better r y) /\ (forall y, In y after -> as_good r y).
(** m is the largest significance of the best fits over the redshifts *)
Definition strongest (op : operator) (reqs : list request) (zs : list Q) (m : Q) : Prop :=
  (exists i r, (i < List.length zs)%nat /\ best_fit (map (fun q => op q i) reqs) r /\ v_ampsig r = m) /\
  forall i r, (i < List.length zs)%nat -> best_fit (map (fun q => op q i) reqs) r -> v_ampsig r <= m.
(** what is asked from the operator for the list of templates ts *)
Definition requests (c : config) (fft : bool) (zs : list Q) (ts : list (string * Z * Z)) : list request :=
  map (fun t => match t with (name, ebmv, meik) => mkReq name fft (k_ignore c && negb fft)%bool ebmv meik zs end) ts.
(** all the templates, without a choice of the dust and of the Meiksin curve *)
Definition everything (c : config) (fft : bool) : list (string * Z * Z) := map (fun t => (t, (-1)%Z, (-1)%Z)) (k_tpls c fft).
(** the fft operator is used when it is asked for in that pass, for 100 redshifts at least *)
Definition uses_fft (c : config) (pass : nat) (zs : list Q) : bool :=
  ((if Nat.eqb pass 1 then k_fft1 c else k_fft2 c) && Nat.leb 100 (List.length zs))%bool.
(** an operator left by this configuration: it masks the lines when asked to, unless it is the fft one *)
Definition op_ok (c : config) (op : option (bool * bool)) : Prop :=
  match op with None => True | Some (k, m) => m = (k_ignore c && negb k)%bool end.
(** the store holds at each redshift the fits of the requests, ranked *)
Definition holds (op : operator) (reqs : list request) (zs : list Q) (t : store) : Prop :=
  fs_grid (t_fs t) = zs /\ fs_count (t_fs t) = List.length reqs /\
  forall i z, nth_error zs i = Some z -> exists l, nth_error (fs_vals (t_fs t)) i = Some l /\ FitStoreSpec.ranked l /\
    Permutation (map (fun f => nth_error (t_all t) (f_tag f)) l) (map (fun q => Some (q_tpl q, op q i)) reqs) /\
    (forall f d, In f l -> nth_error (t_all t) (f_tag f) = Some d -> f_z f = z /\ f_merit f = v_merit (snd d) /\ f_ampsig f = v_ampsig (snd d)) /\
    (forall f, nth_error l 0 = Some f -> exists d, nth_error (t_all t) (f_tag f) = Some d /\ best_fit (map (fun q => op q i) reqs) (snd d)).
(** the continuum decided from the largest significance m: an error, or the component of the rest of the fit *)
Definition decided (c : config) (s : state) (m : Q) (r : res component) : Prop :=
  (m < k_neg c -> o_comp s <> TplFitAuto -> r = Throw NEGATIVE_CONTINUUM) /\
  (m < k_neg c -> o_comp s = TplFitAuto -> o_pass s = 1%nat -> r = Ok FromSpectrum) /\
  (m < k_neg c -> o_comp s = TplFitAuto -> o_pass s <> 1%nat -> r = Ok TplFitAuto) /\
  (k_neg c <= m -> m < k_null c -> o_pass s = 1%nat -> r = Ok NoContinuum) /\
  (k_neg c <= m -> k_null c <= m \/ o_pass s <> 1%nat -> r = Ok (o_comp s)).
Definition rmap {A B} (f : A -> B) (r : res A) : res B := match r with Ok a => Ok (f a) | Throw e => Throw e | UB => UB end.
(** the indices of the dust and of the Meiksin curve of a fit of the first pass; -1: not used *)
Definition dust_index (c : config) (d : string * fitrec) (e : Z) : Prop :=
  if k_dust c then GetEbmvIndex (k_calz c) (v_ebmv (snd d)) = Ok e else e = (-1)%Z.
Definition igm_index (c : config) (d : string * fitrec) : Z := if k_igm c then v_meik (snd d) else (-1)%Z.
(** the templates fitted in the second pass around the candidate j: all of them again, or the first ones of the first pass (C89_refit) *)
Definition asked (c : config) (method : string) (s : state) (j : nat) (fft : bool) (ts : list (string * Z * Z)) : Prop :=
  (method = "retryAll"%string -> ts = everything c fft) /\ (method = "reFitFirstPass"%string -> getContinuumInfoFromFirstpassFitStore c s (Z.of_nat j) fft = Ok ts).
