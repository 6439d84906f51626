(** C70: the spectrum of the model and what is measured with it.
    An element is what it adds to each sample under its windows (C66); [offs] are the amplitude offsets, None if they are not enabled. *)
From Coq Require Import String Qabs Lqa.
From Verif Require Import Base MeikModel IntegSpec MspModel MspSpec MspProofs MspProofs2.
Open Scope Q_scope.

(** the model: the continuum, the offsets, and the lines of the type asked, each once; nothing else changes *)
Theorem C70_refresh : forall es offs type s, let s' := refreshModel es offs type s in
  (forall t, m_model s' t == m_cont s t + offset_at offs [] t + lines type es (m_cont s t) t) /\ m_cont s' = m_cont s /\ m_spc s' = m_spc s /\ m_noc s' = m_noc s.
Proof. intros es offs type s. split; [intros t; apply Refresh|apply Refresh_rest]. Qed.
Print Assumptions C70_refresh.
(** the model under some elements: the continuum and their lines under their windows, the model before elsewhere *)
Theorem C70_refresh_under : forall es idx l s, mapr (vget es) idx = Ok l -> exists s', refreshUnder es idx s = Ok s' /\ m_cont s' = m_cont s /\ m_spc s' = m_spc s /\ m_noc s' = m_noc s /\ forall t,
  (under (flat_map e_win l) t -> m_model s' t == m_cont s t + lines None l (m_cont s t) t) /\ (~ under (flat_map e_win l) t -> m_model s' t == m_model s t).
Proof. exact Refresh_under. Qed.
Print Assumptions C70_refresh_under.
(** the model of some elements alone: zero outside their windows; inside, the continuum with the lines of the last element over the sample, if it is of the type asked *)
Theorem C70_get_model : forall es idx l type s, mapr (vget es) idx = Ok l -> exists f, getModel es idx type s = Ok f /\ forall t,
  (~ under (flat_map e_win l) t -> f t = 0) /\ (forall e, last_over l t e -> f t == m_cont s t + if has_type type e then e_add e (m_cont s t) t else 0).
Proof. exact GetModel. Qed.
Print Assumptions C70_get_model.
Theorem C70_get_model_all_samples : forall l t, under (flat_map e_win l) t -> exists e, last_over l t e.
Proof. exact last_exists. Qed.
Print Assumptions C70_get_model_all_samples.

(** the continuum of a name *)
Theorem C70_component : forall raw icont inoc c s, let s' := setContinuumComponent raw icont inoc c s in
  (c = "noContinuum"%string -> m_model s' = (fun _ => 0) /\ m_cont s' = (fun _ => 0) /\ m_spc s' = raw /\ m_noc s' = raw) /\
  (c = "fromSpectrum"%string -> m_model s' = icont /\ m_cont s' = icont /\ m_spc s' = raw /\ m_noc s' = inoc) /\
  (c = "tplFit"%string \/ c = "tplFitAuto"%string -> m_model s' = (fun _ => 0) /\ m_cont s' = (fun _ => 0) /\ m_spc s' = raw /\ m_noc s' = m_noc s) /\
  (c <> "noContinuum"%string -> c <> "fromSpectrum"%string -> c <> "tplFit"%string -> c <> "tplFitAuto"%string -> s' = s).
Proof. exact Component. Qed.
Print Assumptions C70_component.
Theorem C70_init : forall s, let s' := initModelWithContinuum s in m_model s' = m_cont s /\ m_cont s' = m_cont s /\ m_spc s' = m_spc s /\ forall t, m_noc s' t == m_spc s t - m_cont s t.
Proof. intros s. split; [reflexivity|]. split; [reflexivity|]. split; reflexivity. Qed.
Print Assumptions C70_init.
(** the continuum of a fitted template: a blend with the continuum of the spectrum, the polynomial with the weight of the template; the flux without continuum follows it *)
Theorem C70_template : forall axis grid icont alpha amp cs s, let s' := setContinuumFromTplFit axis grid icont alpha amp cs s in
  m_model s' = m_model s /\ m_spc s' = m_spc s /\ (forall t, m_cont s' t == (1 - alpha) * (amp * grid t + poly_val cs (axis t)) + alpha * icont t) /\ forall t, m_noc s' t == m_spc s t - m_cont s' t.
Proof. exact TplFit. Qed.
Print Assumptions C70_template.
(** without a part, its values do not matter *)
Theorem C70_template_ignores : forall axis grid grid' icont icont' alpha amp cs s, (alpha == 1 \/ forall t, grid t = grid' t) -> (alpha == 0 \/ forall t, icont t = icont' t) ->
  forall t, m_cont (setContinuumFromTplFit axis grid icont alpha amp cs s) t = m_cont (setContinuumFromTplFit axis grid' icont' alpha amp cs s) t.
Proof. exact TplFit_ignores. Qed.
Print Assumptions C70_template_ignores.
(** the flux of which the continuum is estimated: the spectrum without the lines, their strength multiplied by the factor if it is positive *)
Theorem C70_nothing_under_lines : forall enhance s t, (0 < enhance -> nothingUnderLines enhance s t == m_spc s t - enhance * (m_model s t - m_cont s t)) /\ (~ 0 < enhance -> nothingUnderLines enhance s t == m_spc s t - (m_model s t - m_cont s t)).
Proof. exact Nothing. Qed.
Print Assumptions C70_nothing_under_lines.

(** the weight of a sample: the largest of its proximities to the centres of the windows it is strictly inside of, between zero and one *)
Theorem C70_weight : forall axis, growing axis -> forall t rs, let w := weighting axis t (as_Z rs) in
  0 <= w <= 1 /\ (forall b e, In (b, e) rs -> (b < t < e)%nat -> proximity axis t b e <= w) /\
  (w == 0 \/ exists b e, In (b, e) rs /\ (b < t < e)%nat /\ w == proximity axis t b e).
Proof. exact Weight. Qed.
Print Assumptions C70_weight.
(** the spectrum with the lines removed: the lines of the type (and the offsets) are subtracted; under the windows of the positive elements of the type it is blended with the model of the other type *)
Theorem C70_removed : forall es offs axis type s rs, lit_windows type es = as_Z rs -> let f := fst (linesRemoved es offs axis type s) in
  forall t, let bare := m_spc s t - offset_at offs [] t - lines type es (m_cont s t) t in
    (~ under (as_Z rs) t -> f t == bare) /\
    (under (as_Z rs) t -> f t == (1 - (9 # 10) * weighting axis t (as_Z rs)) * bare + (9 # 10) * weighting axis t (as_Z rs) *
       match type with Some b => m_cont s t + offset_at offs [] t + lines (Some (negb b)) es (m_cont s t) t | None => m_model s t end).
Proof. exact Removed. Qed.
Print Assumptions C70_removed.
(** of a spectrum which is its model, without offsets, remain the continuum and the lines of the other type, exactly *)
Theorem C70_removed_perfect : forall es axis b s rs, growing axis -> lit_windows (Some b) es = as_Z rs -> forall t, m_spc s t == m_cont s t + lines None es (m_cont s t) t ->
  fst (linesRemoved es None axis (Some b) s) t == m_cont s t + lines (Some (negb b)) es (m_cont s t) t.
Proof. exact Removed_perfect. Qed.
Print Assumptions C70_removed_perfect.
(** ** but without a type the blend is with the model itself, not the continuum: up to nine tenths of the lines are put back at their centre *)
Theorem C70_removed_all_refuted : forall es axis s rs, lit_windows None es = as_Z rs -> forall t, under (as_Z rs) t -> m_spc s t == m_cont s t + lines None es (m_cont s t) t -> m_model s t == m_spc s t ->
  fst (linesRemoved es None axis None s) t == m_cont s t + (9 # 10) * weighting axis t (as_Z rs) * lines None es (m_cont s t) t.
Proof. exact Removed_none_perfect. Qed.
Print Assumptions C70_removed_all_refuted.
(** and the removal leaves only the lines of the type in the model *)
Theorem C70_removed_model_refuted : forall es offs axis type s, let s2 := snd (linesRemoved es offs axis type s) in m_cont s2 = m_cont s /\ m_spc s2 = m_spc s /\ m_noc s2 = m_noc s /\ forall t, m_model s2 t == m_cont s t + offset_at offs [] t + lines type es (m_cont s t) t.
Proof. exact Removed_state. Qed.
Print Assumptions C70_removed_model_refuted.

(** the residual of the continuum: squared differences of the spectrum with the lines removed and the continuum, on both bounds included *)
Theorem C70_residual : forall es offs axis b e s, let r := continuumResidual es offs axis b e s in let f := fst (linesRemoved es offs axis None s) in
  fst (fst r) == sigma (fun t => (f t - m_cont s t) * (f t - m_cont s t)) b (S e - b) /\ snd (fst r) = (S e - b)%nat /\ snd r = snd (linesRemoved es offs axis None s).
Proof. exact Residual. Qed.
Print Assumptions C70_residual.
Theorem C70_weighted_sum : forall offs axis s poly b ws, let g := fun i => m_cont s i + match offs with Some _ => poly (axis i) | None => 0 end in
  let r := continuumWeightedSum offs axis s poly b ws in let w := fun i => nth (i - b) ws 0 in let n := List.length ws in
  fst (fst r) == sigma (fun i => w i * g i) b n /\ snd (fst r) == sigma w b n /\ snd r == sigma (fun i => w i * w i) b n.
Proof. exact WeightedSum. Qed.
Print Assumptions C70_weighted_sum.
(** the mean of the continuum under a line, over all the spectra: between the extreme means; its deviation needs ten samples *)
Theorem C70_mean : forall sqrtf l lo hi, (forall c, In c l -> 0 <= c_w c /\ lo * c_w c <= c_sum c <= hi * c_w c) -> let w := fold_right (fun b s => c_w b + s) 0 l in
  (w == 0 -> meanContinuum sqrtf l = (None, None)) /\
  (0 < w -> exists m sd, meanContinuum sqrtf l = (Some m, sd) /\ m * w == fold_right (fun b s => c_sum b + s) 0 l /\ lo <= m <= hi /\ (sd = None <-> (fold_right (fun b s => c_n b + s) 0 l < 10)%nat)).
Proof. exact Mean. Qed.
Print Assumptions C70_mean.
Theorem C70_deviation : forall sqrtf l m sd, (forall x y, x == y -> sqrtf x == sqrtf y) -> meanContinuum sqrtf l = (Some m, Some sd) ->
  let total (f : csums -> Q) := fold_right (fun b s => f b + s) 0 l in
  sd == sqrtf (total c_res / inject_Z (Z.of_nat (fold_right (fun b s => c_n b + s) 0 l)%nat)) * sqrtf (total c_w2) / total c_w.
Proof. exact Deviation. Qed.
Print Assumptions C70_deviation.

(** the continuum under lines *)
Theorem C70_continuum_under : forall es offs rs idx sub s l, mapr (vget es) idx = Ok l -> exists c, continuumUnderLines es offs rs idx sub s = Ok c /\ forall t,
  (~ under rs t -> c t == 0) /\
  (under rs t -> sub = false -> c t == m_cont s t + offset_at offs idx t) /\
  (under rs t -> sub = true -> ~ under (flat_map e_win l) t -> c t == offset_at offs idx t) /\
  (under rs t -> sub = true -> forall e, last_over l t e -> c t == m_cont s t + (if has_type (Some false) e then e_add e (m_cont s t) t else 0) + offset_at offs idx t).
Proof. exact ContinuumUnder. Qed.
Print Assumptions C70_continuum_under.
(** the flux by direct integration: the integral of the spectrum minus that continuum over the ranges *)
Theorem C70_direct : forall es offs axis n err rs idx sub_idx sub s l, mapr (vget es) idx = Ok l -> List.length idx = List.length sub_idx -> rs <> [] -> apart rs -> (2 <= n)%nat -> Forall (fun r => (fst r <= snd r < n)%nat) rs ->
  exists c F E, continuumUnderLines es offs (as_Z rs) idx sub s = Ok c /\ directIntegration es offs axis n err (as_Z rs) idx sub_idx sub s = Ok (F, E) /\ F == integrals axis (fun t => m_spc s t - c t) n rs.
Proof. exact Direct. Qed.
Print Assumptions C70_direct.
Theorem C70_direct_plain : forall es offs axis n err rs idx sub_idx s l, mapr (vget es) idx = Ok l -> List.length idx = List.length sub_idx -> rs <> [] -> apart rs -> (2 <= n)%nat -> Forall (fun r => (fst r <= snd r < n)%nat) rs ->
  exists F E, directIntegration es offs axis n err (as_Z rs) idx sub_idx false s = Ok (F, E) /\ F == integrals axis (fun t => m_spc s t - m_cont s t - offset_at offs idx t) n rs.
Proof. exact Direct_plain. Qed.
Print Assumptions C70_direct_plain.
Theorem C70_direct_error : forall es offs axis n err b e idx sub_idx sub s l, mapr (vget es) idx = Ok l -> List.length idx = List.length sub_idx -> (2 <= n)%nat -> (b <= e < n)%nat ->
  exists F E, directIntegration es offs axis n err (as_Z [(b, e)]) idx sub_idx sub s = Ok (F, E) /\ E == sigma (fun i => (axis (S i) - axis i) * (axis (S i) - axis i) / 4 * (err i * err i + err (S i) * err (S i))) b (e - b).
Proof. exact Direct_error. Qed.
Print Assumptions C70_direct_error.
Theorem C70_direct_throws : forall es offs axis n err rs idx sub_idx sub s, List.length idx <> List.length sub_idx \/ rs = [] -> directIntegration es offs axis n err rs idx sub_idx sub s = Throw INTERNAL_ERROR.
Proof. exact Direct_throws. Qed.
Print Assumptions C70_direct_throws.
(** ** the absorption asked to be subtracted is only that of the elements integrated: for emission lines it never is *)
Theorem C70_absorption_refuted : forall es offs axis n err rs idx sub_idx s l, mapr (vget es) idx = Ok l -> List.length idx = List.length sub_idx -> rs <> [] -> apart rs -> (2 <= n)%nat -> Forall (fun r => (fst r <= snd r < n)%nat) rs ->
  (forall e, In e l -> e_em e = true) -> (forall t, under (as_Z rs) t -> under (flat_map e_win l) t) ->
  exists F E F' E', directIntegration es offs axis n err (as_Z rs) idx sub_idx true s = Ok (F, E) /\ directIntegration es offs axis n err (as_Z rs) idx sub_idx false s = Ok (F', E') /\ F == F'.
Proof. exact Direct_emission. Qed.
Print Assumptions C70_absorption_refuted.
(** the flux and its signal to noise ratio, over all the spectra *)
Theorem C70_flux_snr : forall sqrtf l, (forall x y, x == y -> sqrtf x == sqrtf y) -> let F := fold_right (fun b s => fst b + s) 0 l in let E := fold_right (fun b s => snd b + s) 0 l in
  (E <= 0 -> fluxAndSnr sqrtf l = None) /\ (0 < E -> exists f r, fluxAndSnr sqrtf l = Some (f, r) /\ f == F /\ r == Qabs F / sqrtf E).
Proof. exact Flux_snr. Qed.
Print Assumptions C70_flux_snr.
(** the strong lines above a ratio: a name is reported, once, if the direct integration of its line, or of the lines of its doublet up to one in the range, is above it *)
Theorem C70_snr : forall sqrtf find place di cut, (forall l b, l <> [] -> exists fe, di (map fst l) (map snd l) b = Ok fe) ->
  exists out, getLinesAboveSNR sqrtf find place di cut = Ok out /\ NoDup out /\ forall name, In name out <->
    exists tags m tag fe, In (name, tags) reported /\ nth_error tags m = Some tag /\ placed find place tag <> None /\
      (let l := all_placed find place (firstn (S m) tags) in di (map fst l) (map snd l) (Nat.eqb (List.length tags) 1)) = Ok fe /\ 0 < snd fe /\ cut < Qabs (fst fe) / sqrtf (snd fe).
Proof. exact Snr_names. Qed.
Print Assumptions C70_snr.

(** * a concrete case: an emission line of a flux proportional to [0;1;4;1;0] on a continuum of 2, an absorption line beside it *)
Definition em : elt := mkElt true [(0, 4)]%Z (fun _ t => nth t [0; 1; 4; 1; 0] 0) true.
Definition ab : elt := mkElt false [(3, 6)]%Z (fun c t => - (nth t [0; 0; 0; 0; 1; 1; 0] 0 * c / 2)) true.
Definition ex_es : list elt := [em; ab].
Definition ex_ax (t : nat) : Q := inject_Z (Z.of_nat t).
Definition flat2 : spec := fun _ => 2.
Definition ex_full : spec := fun t => 2 + nth t [0; 1; 4; 1; -1; -1; 0] 0.
Definition ex_s : mst := mkM ex_full flat2 ex_full (fun t => ex_full t - 2).
Example C70_ex_axis : growing ex_ax.
Proof. intros i j H. unfold ex_ax. rewrite <- Zlt_Qlt. lia. Qed.
Example C70_ex_refresh : map (fun t => Qred (m_model (refreshModel ex_es None None ex_s) t)) (seq 0 8) = [2; 3; 6; 3; 1; 1; 2; 2] /\
  map (fun t => Qred (m_model (refreshModel ex_es (Some (fun _ t => ex_ax t)) (Some false) ex_s) t)) (seq 0 8) = [2; 3; 4; 5; 5; 6; 8; 9].
Proof. split; vm_compute; reflexivity. Qed.
Example C70_ex_under : exists l s', mapr (vget ex_es) [1%nat] = Ok l /\ l = [ab] /\ refreshUnder ex_es [1%nat] ex_s = Ok s' /\ map (fun t => Qred (m_model s' t)) (seq 0 8) = [2; 3; 6; 2; 1; 1; 2; 2].
Proof. do 2 eexists. split; [reflexivity|]. split; [reflexivity|]. split; [reflexivity|]. vm_compute. reflexivity. Qed.
Example C70_ex_template : map (fun t => Qred (m_cont (setContinuumFromTplFit ex_ax ex_full flat2 (1 # 2) 3 [1; 1] ex_s) t)) (seq 0 4) = [9 # 2; 13 # 2; 23 # 2; 15 # 2].
Proof. vm_compute. reflexivity. Qed.
Example C70_ex_component : m_noc (setContinuumComponent ex_full flat2 flat2 "noContinuum" ex_s) 2%nat = 6 /\ setContinuumComponent ex_full flat2 flat2 "powerLaw" ex_s = ex_s.
Proof. split; [vm_compute|]; reflexivity. Qed.
Example C70_ex_nothing : Qred (nothingUnderLines 2 ex_s 2%nat) = -2 /\ Qred (nothingUnderLines 0 ex_s 2%nat) = 2.
Proof. split; vm_compute; reflexivity. Qed.
Example C70_ex_weight : lit_windows (Some true) ex_es = as_Z [(0, 4)%nat] /\ Qred (weighting ex_ax 2 (as_Z [(0, 4)%nat])) = 1 /\ Qred (weighting ex_ax 1 (as_Z [(0, 4)%nat])) = 1 # 2 /\ Qred (weighting ex_ax 0 (as_Z [(0, 4)%nat])) = 0.
Proof. split; [reflexivity|]. split; [vm_compute; reflexivity|]. split; vm_compute; reflexivity. Qed.
Example C70_ex_removed : map (fun t => Qred (fst (linesRemoved ex_es None ex_ax (Some true) ex_s) t)) (seq 0 7) = [2; 2; 2; 2; 1; 1; 2] /\
  (forall t, (t < 7)%nat -> m_spc ex_s t == m_cont ex_s t + lines None ex_es (m_cont ex_s t) t).
Proof. split; [vm_compute; reflexivity|]. intros t T. do 7 (destruct t as [|t]; [vm_compute; reflexivity|]). lia. Qed.
(** all the lines removed from a spectrum which is its model: the line is still there, and the residual of the continuum is not zero *)
Example C70_ex_removed_all : Qred (fst (linesRemoved ex_es None ex_ax None ex_s) 2%nat) = 28 # 5 /\ lit_windows None ex_es = as_Z [(0, 4); (3, 6)]%nat /\ m_model ex_s 2%nat == m_spc ex_s 2%nat /\
  Qred (fst (fst (continuumResidual ex_es None ex_ax 2 2 ex_s))) = 324 # 25.
Proof. split; [vm_compute; reflexivity|]. split; [reflexivity|]. split; [reflexivity|]. vm_compute. reflexivity. Qed.
Example C70_ex_mean : (forall c, In c [mkC 4 2 2 0 6; mkC 9 3 7 40 4] -> 0 <= c_w c /\ 2 * c_w c <= c_sum c <= 3 * c_w c) /\
  match meanContinuum (fun x => x) [mkC 4 2 2 0 6; mkC 9 3 7 40 4] with (Some m, Some sd) => Qred m = 13 # 5 /\ Qred sd = 36 # 5 | _ => False end.
Proof. split; [|split; vm_compute; reflexivity]. intros c [<-|[<-|[]]]; cbn [c_w c_sum]; lra. Qed.
Example C70_ex_direct : exists l, mapr (vget ex_es) [0%nat] = Ok l /\ (forall e, In e l -> e_em e = true) /\ apart [(0, 4)%nat] /\ Forall (fun r => (fst r <= snd r < 7)%nat) [(0, 4)%nat] /\
  (forall t, under (as_Z [(0, 4)%nat]) t -> under (flat_map e_win l) t) /\
  match directIntegration ex_es None ex_ax 7 (fun _ => 2) (as_Z [(0, 4)%nat]) [0%nat] [0%nat] true ex_s with Ok (F, E) => Qred F = 11 # 2 /\ Qred E = 8 | _ => False end.
Proof.
  exists [em]. split; [reflexivity|]. split; [intros e [<-|[]]; reflexivity|]. split; [repeat constructor|]. split; [repeat constructor; cbn; lia|]. split; [|split; vm_compute; reflexivity].
  intros t (b & e & [X|[]] & H). inversion X; subst. exists 0%Z, 4%Z. split; [left; reflexivity|exact H].
Qed.
Example C70_ex_flux_snr : match fluxAndSnr (fun x => x) [(3, 1); (-5, 1)] with Some (f, r) => Qred f = -2 /\ Qred r = 1 | None => False end.
Proof. split; vm_compute; reflexivity. Qed.
(** the doublet OII: its first line in the range only *)
Definition ex_find (x : string) : option (nat * bool) := if String.eqb x "[OII]3726" then Some (0%nat, true) else if String.eqb x "[OII]3729" then Some (1%nat, true) else if String.eqb x "Halpha" then Some (2%nat, false) else None.
Definition ex_place (i : nat) : option (nat * nat) := Some (i, 0%nat).
Definition ex_di (l _ : list nat) (_ : bool) : res (Q * Q) := match l with [_] => Ok (4, 1) | _ => Ok (4, 16) end.
Example C70_ex_snr : (forall l b, l <> [] -> exists fe, ex_di (map fst l) (map snd l) b = Ok fe) /\ getLinesAboveSNR (fun x => x) ex_find ex_place ex_di 2 = Ok ["OII"%string].
Proof. split; [intros l b _; unfold ex_di; destruct (map fst l) as [|x [|y k]]; eexists; reflexivity|vm_compute; reflexivity]. Qed.

(** ** what does not hold *)
(** the model of overlapping elements is not the sum of their lines, and depends on their order *)
Theorem C70_get_model_sum_refuted : exists es s f g t, getModel es [0; 1]%nat None s = Ok f /\ getModel es [1; 0]%nat None s = Ok g /\ ~ f t == g t /\ ~ f t == m_cont s t + lines None es (m_cont s t) t.
Proof. exists [em; mkElt true [(0, 4)]%Z (fun _ _ => 1) true], ex_s. eexists. eexists. exists 2%nat. split; [reflexivity|]. split; [reflexivity|]. split; vm_compute; discriminate. Qed.
Print Assumptions C70_get_model_sum_refuted.
(** drawing again the model under elements loses the amplitude offsets, and the lines of the other elements there *)
Theorem C70_refresh_under_same_refuted : exists es offs s s' t, refreshUnder es [0%nat] (refreshModel es offs None s) = Ok s' /\ ~ m_model s' t == m_model (refreshModel es offs None s) t.
Proof. exists [em], (Some (fun _ _ => 1)), ex_s. eexists. exists 2%nat. split; [reflexivity|]. vm_compute. discriminate. Qed.
Print Assumptions C70_refresh_under_same_refuted.
Theorem C70_refresh_under_others_refuted : exists es s s' t, refreshUnder es [0%nat] (refreshModel es None None s) = Ok s' /\ ~ m_model s' t == m_model (refreshModel es None None s) t.
Proof. exists [em; em], ex_s. eexists. exists 2%nat. split; [reflexivity|]. vm_compute. discriminate. Qed.
Print Assumptions C70_refresh_under_others_refuted.
(** the integration range of a line can be longer than its window: there, with the absorption subtracted, the continuum is not *)
Theorem C70_direct_window_refuted : exists s F E F' E', directIntegration [em] None ex_ax 7 (fun _ => 1) (as_Z [(0, 6)%nat]) [0%nat] [0%nat] true s = Ok (F, E) /\ directIntegration [em] None ex_ax 7 (fun _ => 1) (as_Z [(0, 6)%nat]) [0%nat] [0%nat] false s = Ok (F', E') /\
  (forall t, (t <= 6)%nat -> m_spc s t == m_cont s t) /\ F' == 0 /\ F == 3.
Proof. exists (mkM flat2 flat2 flat2 (fun _ => 0)). do 4 eexists. split; [vm_compute; reflexivity|]. split; [vm_compute; reflexivity|]. split; [intros; reflexivity|]. split; vm_compute; reflexivity. Qed.
Print Assumptions C70_direct_window_refuted.
(** a doublet is reported when its first line alone is above the ratio though the doublet is not *)
Theorem C70_doublet_refuted : exists find place di cut fe, (forall l b, l <> [] -> exists fe, di (map fst l) (map snd l) b = Ok fe) /\ getLinesAboveSNR (fun x => x) find place di cut = Ok ["OII"%string] /\
  all_placed find place ["[OII]3726"; "[OII]3729"]%string = [(0, 0); (1, 0)]%nat /\ di [0; 1]%nat [0; 0]%nat false = Ok fe /\ Qabs (fst fe) / snd fe < cut.
Proof. exists ex_find, ex_place, ex_di, 2, (4, 16). split; [apply C70_ex_snr|]. split; [vm_compute; reflexivity|]. split; [reflexivity|]. split; [reflexivity|]. vm_compute. reflexivity. Qed.
Print Assumptions C70_doublet_refuted.
