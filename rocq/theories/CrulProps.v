(** C73: the rules which the solutions of the line matching must follow. *)
From Coq Require Import String.
From Verif Require Import Base F64 RangeModel AxisSpec AxisModel MatchModel MatchSpec DetModel DetSpec DetProps CrulModel CrulSpec CrulProofs.
Open Scope Q_scope.

(** the code of a solution: units, tens and hundreds are the three rules broken: only weak lines although a strong one is expected and seen less noisy and lower than them;
    one [OIII]b without [OIII]a; one Hbeta without exactly one Halpha.  There always is a code on a usable spectrum *)
Theorem C73_code : forall u z s, good_rules u -> exists a b c, check u z s = Ok (a + 10 * b + 100 * c)%Z /\
  ((a = 1%Z /\ only_weak s /\ missing_strong u z s) \/ (a = 0%Z /\ ~ (only_weak s /\ missing_strong u z s))) /\
  ((b = 1%Z /\ partner_inside u z oIIIa_em /\ one_named oIIIb_em s /\ none_named oIIIa_em s) \/ (b = 0%Z /\ ~ (partner_inside u z oIIIa_em /\ one_named oIIIb_em s /\ none_named oIIIa_em s))) /\
  ((c = 1%Z /\ partner_inside u z halpha_em /\ one_named hbeta_em s /\ ~ one_named halpha_em s) \/ (c = 0%Z /\ ~ (partner_inside u z halpha_em /\ one_named hbeta_em s /\ ~ one_named halpha_em s))).
Proof. intros u z s G. destruct (check_total u z s G) as (k & K). destruct (check_digits u z s k G K) as (a & b & c & -> & H). exists a, b, c. auto. Qed.
Print Assumptions C73_code.
Theorem C73_zero : forall u z s, good_rules u ->
  (check u z s = Ok 0%Z <-> ~ (only_weak s /\ missing_strong u z s) /\ ~ (partner_inside u z oIIIa_em /\ one_named oIIIb_em s /\ none_named oIIIa_em s) /\ ~ (partner_inside u z halpha_em /\ one_named hbeta_em s /\ ~ one_named halpha_em s)).
Proof. exact check_zero. Qed.
Print Assumptions C73_zero.
(** the filter keeps the solutions without a broken rule, in their order, and records the others with their codes *)
Theorem C73_filter : forall u l ok, good_rules u -> (forall s, In s l -> (ok s = true <-> check u (mean_z s) s = Ok 0%Z)) ->
  exists codes, filter_sets u l = Ok (filter ok l, filter (fun s => negb (ok s)) l, codes) /\ Forall2 (fun s k => check u (mean_z s) s = Ok k) (filter (fun s => negb (ok s)) l) codes.
Proof. exact filter_ok. Qed.
Print Assumptions C73_filter.
Theorem C73_mean : forall s, mean_z s == mean_redshift s.
Proof. exact MatchProofs.mean_spec. Qed.
Print Assumptions C73_mean.

(** * a concrete case: catalog with the two [OIII] lines, Hbeta, Halpha and a weak line.  The window is 200, the lines [OIII]a and Halpha are at 200 *)
Definition exr (i : Z) (p : Q) (n : string) (st : bool) : rest := mkRest i p n true st.
Definition exs (r : rest) : sol := mkSol (mkDet (r_id r) (r_pos r) 1 true true) r 0.
Definition ex_cat : list rest := [exr 0 200 "[OIII]a" true; exr 1 300 "[OIII]b" false; exr 2 400 "Hbeta" false; exr 3 200 "Halpha" false; exr 4 1000 "weak" false].
Definition ex_rules : crules := mkRules (mkSpc (map (fun i => inject_Z (100 * Z.of_nat i)) (seq 0 15)) [0; 0; 1; 2; 0; 0; 0; 0; 0; 5; 20; 1; 0; 0; 0] []) ex_cat 50 1400 200.
Definition pick (l : list nat) : list sol := map (fun i => exs (nth i ex_cat (exr 9 1 "" false))) l.
Example C73_case_good : good_rules ex_rules.
Proof. split; [|split; [cbn; lia|vm_compute; discriminate]]. split; [|split; [reflexivity|left; reflexivity]]. apply (DetProps.grid_increasing 15). Qed.
Example C73_case : map (fun l => check ex_rules 0 (pick l)) [[0]; [4]; [1]; [2]; [1; 0]; [2; 3]; [0; 1; 2]; [2; 1]]%nat =
  [Ok 0%Z; Ok 1%Z; Ok 10%Z; Ok 100%Z; Ok 0%Z; Ok 0%Z; Ok 100%Z; Ok 110%Z].
Proof. vm_compute. reflexivity. Qed.
Example C73_case_filter : filter_sets ex_rules (map pick [[0]; [4]; [1; 0]; [2; 1]]%nat) = Ok (map pick [[0]; [1; 0]]%nat, map pick [[4]; [2; 1]]%nat, [1; 110]%Z).
Proof. vm_compute. reflexivity. Qed.

(** * refuted.  The comments and the names say that a line is inside when its position is in the wavelength range (for the doublets with a margin of a window) *)
Theorem C73_inside_refuted : forall u l w, ~ u_lo u + (if w : bool then 1 else 0) == 0 -> ~ u_hi u + (if w then 1 else 0) == 0 -> (isLineInsideRange u (Some l) w = true <-> l == u_win u).
Proof. exact inside_iff. Qed.
Print Assumptions C73_inside_refuted.
(** so with a window shorter than the rest positions the filter removes nothing, whatever the solutions and the spectrum *)
Theorem C73_never_refuted : forall u l, 0 < u_lo u -> 0 < u_hi u -> (forall r, In r (u_rest u) -> u_win u < r_pos r /\ 0 < r_pos r) -> (forall s x, In s l -> In x s -> 0 <= s_z x) ->
  filter_sets u l = Ok (l, [], []).
Proof. exact never. Qed.
Print Assumptions C73_never_refuted.
(** the same spectrum with a window of 199: a lonely [OIII]b is kept although [OIII]a would be seen at 200, well inside the range *)
Example C73_never_case : let u := mkRules (u_spc ex_rules) ex_cat 50 1400 199 in filter_sets u (map pick [[1]; [2; 1]]%nat) = Ok (map pick [[1]; [2; 1]]%nat, [], []).
Proof. vm_compute. reflexivity. Qed.
(** rule 1 also looks at the strong lines outside of the wavelength range: without them the solution would be kept *)
Definition ex_far : list rest := [exr 0 200 "strong" true; exr 1 1300 "far" true; exr 2 1000 "weak" false].
Definition ex_spc : spc := mkSpc (map (fun i => inject_Z (100 * Z.of_nat i)) (seq 0 15)) [0; 1; 90; 2; 0; 0; 0; 0; 0; 5; 20; 1; 0; 1; 2] [].
Theorem C73_outside_refuted : exists u z s, good_rules u /\ check u z s = Ok 1%Z /\
  check (mkRules (u_spc u) (filter (fun r => Qle_bool (u_lo u) (r_pos r * (1 + z)) && Qle_bool (r_pos r * (1 + z)) (u_hi u))%bool (u_rest u)) (u_lo u) (u_hi u) (u_win u)) z s = Ok 0%Z.
Proof.
  exists (mkRules ex_spc ex_far 50 1200 200), 0, [exs (exr 2 1000 "weak" false)]. split; [|split; [vm_compute; reflexivity|vm_compute; reflexivity]].
  split; [|split; [cbn; lia|vm_compute; discriminate]]. split; [|split; [reflexivity|left; reflexivity]]. apply (proj1 (proj1 C73_case_good)).
Qed.
Print Assumptions C73_outside_refuted.
