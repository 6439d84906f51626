(** Vocabulary for C73. *)
From Coq Require Import String.
From Verif Require Import Base F64 RangeModel AxisSpec AxisModel MatchModel MatchSpec DetModel DetSpec CrulModel.
Open Scope Q_scope.

(** the name of the line contains the text *)
Definition named (tag : string) (r : rest) : Prop := exists p q, r_name r = (p ++ tag ++ q)%string.
(** a strong emission line of the catalog *)
Definition strong_rest (u : crules) (r : rest) : Prop := In r (u_rest u) /\ r_em r = true /\ r_strong r = true.
Definition only_weak (s : list sol) : Prop := forall x, In x s -> r_strong (s_r x) = false.
(** ratio and deviation of the line in the window around its position at the redshift z *)
Definition measured (u : crules) (z : Q) (r : rest) (ratio : f64) (noise : Q) : Prop :=
  exists a b h, GetIndexesAtWaveLengthRange (sp_lam (u_spc u)) (mkRange (r_pos r * (1 + z) - u_win u / 2) (r_pos r * (1 + z) + u_win u / 2)) = Ok (a, b) /\
    ComputeFluxes (u_spc u) (u_win u) (Z.of_nat a, Z.of_nat b) [] = Ok (ratio, h, noise).
(** the largest ratio and the largest deviation of the lines of a solution, at least 0 *)
Definition largest_ratio (u : crules) (z : Q) (s : list sol) (m : f64) : Prop :=
  m <> NaN /\ (m = Fin 0 \/ exists x n, In x s /\ measured u z (s_r x) m n) /\ flt m (Fin 0) = false /\ forall x r n, In x s -> measured u z (s_r x) r n -> flt m r = false.
Definition largest_noise (u : crules) (z : Q) (s : list sol) (m : Q) : Prop :=
  (m = 0 \/ exists x r, In x s /\ measured u z (s_r x) r m) /\ 0 <= m /\ forall x r n, In x s -> measured u z (s_r x) r n -> n <= m.
(** some of the strong lines are in the range, and one of the catalog is below the weak lines of the solution in ratio and in deviation *)
Definition missing_strong (u : crules) (z : Q) (s : list sol) : Prop :=
  (exists r, strong_rest u r /\ isLineInsideRange u (Some (r_pos r * (1 + z))) false = true) /\
  exists mr mn, largest_ratio u z s mr /\ largest_noise u z s mn /\ exists r ratio noise, strong_rest u r /\ measured u z r ratio noise /\ flt ratio mr = true /\ noise < mn.
(** exactly one line with that name *)
Definition one_named (tag : string) (s : list sol) : Prop := exists a x b, s = (a ++ x :: b)%list /\ named tag (s_r x) /\ forall y, In y a \/ In y b -> ~ named tag (s_r y).
Definition none_named (tag : string) (s : list sol) : Prop := forall x, In x s -> ~ named tag (s_r x).
(** the first line of the catalog with that name is at position p *)
Definition catalog_position (u : crules) (tag : string) (p : Q) : Prop :=
  exists a r b, u_rest u = (a ++ r :: b)%list /\ named tag r /\ r_pos r = p /\ forall y, In y a -> ~ named tag y.
Definition partner_inside (u : crules) (z : Q) (tag : string) : Prop := exists p, catalog_position u tag p /\ isLineInsideRange u (Some (p * (1 + z))) true = true.
(** a usable spectrum *)
Definition good_rules (u : crules) : Prop := good_spectrum (u_spc u) /\ (0 < List.length (sp_lam (u_spc u)))%nat /\ 0 <= u_win u.
