(** C44: air/vacuum conversion of the line wavelengths. *)
From Coq Require Import String.
From Verif Require Import Base AirVacModel AirVacSpec AirVacProofs.
Open Scope Q_scope.

(** the five names are known, any other is refused *)
Theorem C44_names name :
  (In name ["edlen1953"; "edlen1966"; "PeckReeder1972"; "ciddor1996"; "morton2000"]%string -> exists c, Get name = Ok c /\ known c) /\
  (~ In name ["edlen1953"; "edlen1966"; "PeckReeder1972"; "ciddor1996"; "morton2000"]%string -> Get name = Throw UNKNOWN_AIR_VACUUM_CONVERSION).
Proof. exact (get_spec name). Qed.
Print Assumptions C44_names.

(** a converter computes the index published under its name *)
Theorem C44_index name c w : Get name = Ok c -> 0 < w -> refractive c w == published_index name w.
Proof. exact (get_index name c w). Qed.
Print Assumptions C44_index.

(** an empty list or a wavelength outside the validity range is refused, in both directions *)
Theorem C44_refused c l : (l = [] \/ exists w, In w l /\ ~ accepted c w) -> VacToAir c l = Throw INTERNAL_ERROR /\ AirToVac c l = Throw INTERNAL_ERROR.
Proof. exact (refused c l). Qed.
Print Assumptions C44_refused.

(** vacuum to air: one result per wavelength, n * air = vacuum, shorter by 2.6e-4 to 3.3e-4, and order is preserved *)
Theorem C44_vac_to_air c l : known c -> l <> [] -> (forall w, In w l -> accepted c w) -> exists out, VacToAir c l = Ok out /\ Forall2 (air_pair c) l out /\
  (forall i j w w' a a', nth_error l i = Some w -> nth_error l j = Some w' -> nth_error out i = Some a -> nth_error out j = Some a' -> w < w' -> a < a').
Proof. exact (vac_to_air c l). Qed.
Print Assumptions C44_vac_to_air.

(** air to vacuum: one result per wavelength, no warning, and it inverts the conversion up to 1.1e-7 *)
Theorem C44_air_to_vac c l : known c -> l <> [] -> (forall w, In w l -> accepted c w) -> exists out, AirToVac c l = Ok (out, false) /\ Forall2 (vac_pair c) l out.
Proof. exact (air_to_vac c l). Qed.
Print Assumptions C44_air_to_vac.

(** back and forth: a vacuum wavelength is recovered up to 1.2e-7 whenever its air wavelength is accepted *)
Theorem C44_round_trip c l airs : known c -> l <> [] -> (forall w, In w l -> accepted c w) -> VacToAir c l = Ok airs -> (forall a, In a airs -> accepted c a) ->
  exists out, AirToVac c airs = Ok (out, false) /\ Forall2 (fun v y => Qabs (y - v) < (12 # 100000000) * v) l out.
Proof. exact (round_trip c l airs). Qed.
Print Assumptions C44_round_trip.

(** the four iterative converters stop after one iteration, because the signed difference (always negative) is compared with the
    precision 1e-9: every vacuum wavelength returned, without a warning, misses by more than 5e-5 Angstrom *)
Theorem C44_precision_refuted c l : iterative c -> l <> [] -> (forall w, In w l -> accepted c w) ->
  exists out, AirToVac c l = Ok (out, false) /\ Forall2 (fun a v => 5 # 100000 < a - v / refractive c v) l out.
Proof. exact (no_precision c l). Qed.
Print Assumptions C44_precision_refuted.

(** the range is tested on the input, vacuum or air: the shortest accepted vacuum wavelength has an air wavelength that cannot be converted back *)
Theorem C44_round_trip_refused_refuted c : known c -> exists a, VacToAir c [k_min c] = Ok [a] /\ AirToVac c [a] = Throw INTERNAL_ERROR.
Proof. exact (round_trip_refused c). Qed.
Print Assumptions C44_round_trip_refused_refuted.

Example C44_nonvacuous : known morton2000 /\ iterative edlen1953 /\ (forall w, In w [6562; 5007] -> accepted morton2000 w) /\ (forall w, In w [6562; 5007] -> accepted edlen1953 w) /\
  (exists airs, VacToAir edlen1953 [6562; 5007] = Ok airs /\ forall a, In a airs -> accepted edlen1953 a) /\ ~ accepted morton2000 1216 /\ Get "edlen1953" = Ok edlen1953 /\ known edlen1953.
Proof.
  split; [unfold known; cbn [In]; tauto|]. split; [unfold iterative; cbn [In]; tauto|]. split; [intros w [<-|[<-|[]]]; split; vm_compute; discriminate|].
  split; [intros w [<-|[<-|[]]]; (split; [vm_compute; discriminate|exact Logic.I])|]. split; [eexists; split; [reflexivity|]; intros a [<-|[<-|[]]]; (split; [vm_compute; discriminate|exact Logic.I])|].
  split; [intros [A _]; apply A; reflexivity|]. split; [reflexivity|unfold known; cbn [In]; tauto].
Qed.
