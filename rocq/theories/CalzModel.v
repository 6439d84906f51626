(** Model of the interstellar extinction: RedshiftLibrary/src/lib/spectrum/fluxcorrectioncalzetti.cpp and
    RedshiftLibrary/RedshiftLibrary/spectrum/fluxcorrectioncalzetti.h.  Exact rationals; Int32 indices do not overflow. *)
From Verif Require Import Base AxisModel.
Open Scope Q_scope.

(** operator[] with an Int32 index (a negative one becomes huge) and at() *)
Definition zget {A} (l : list A) (i : Z) : res A := if (i <? 0)%Z then UB else vget l (Z.to_nat i).
Definition zat {A} (l : list A) (i : Z) : res A :=
  if (i <? 0)%Z then Throw STD_out_of_range else match nth_error l (Z.to_nat i) with Some x => Ok x | None => Throw STD_out_of_range end.

(** fluxcorrectioncalzetti.cpp:48 *)
Definition reg_tol : Q := 1 # 100000000.
(** the comparison of fluxcorrectioncalzetti.cpp:54-58.  A division by a null step gives an infinity, or NaN (not greater) for 0/0. *)
Definition irregular (step d : Q) : bool :=
  if Qeq_bool step 0 then negb (Qeq_bool d 0) else Qltb reg_tol (Qabs ((d - step) / step)).
(** the loop of fluxcorrectioncalzetti.cpp:49-60: [prev] is lbda[t - 1] *)
Fixpoint any_irregular (step prev : Q) (l : list Q) : bool :=
  match l with [] => false | x :: t => (irregular step (x - prev) || any_irregular step x t)%bool end.
(** CalzettiCorrection: fluxcorrectioncalzetti.h:46-52, fluxcorrectioncalzetti.cpp:44-62 (lbda[1] is read without check) *)
Record calzcorr := mkCorr { cc_lbda : list Q; cc_corr : list Q; cc_step : Q }.
Definition NewCalzettiCorrection (lbda corr : list Q) : res calzcorr :=
  match lbda with
  | a :: b :: t => if any_irregular (b - a) b t then Throw BAD_CALZETTICORR else Ok (mkCorr lbda corr (b - a))
  | _ => UB
  end.

(** CSpectrumFluxCorrectionCalzetti: fluxcorrectioncalzetti.h:74-86 *)
Record calz := mkCalz { cz_data : list Q; cz_n : Z; cz_bstep : Q; cz_bstart : Q; cz_coef : list Q; cz_min : Q; cz_max : Q; cz_step : Q }.

(** GetEbmvValue, fluxcorrectioncalzetti.cpp:82-85 *)
Definition ebmv_value (start step : Q) (k : Z) : Q := start + step * inject_Z k.
Definition GetEbmvValue (c : calz) (k : Z) : Q := ebmv_value (cz_bstart c) (cz_bstep c) k.
(** GetEbmvIndex, fluxcorrectioncalzetti.cpp:87-90; the conversion of an infinity or a NaN to Int32 is undefined *)
Definition GetEbmvIndex (c : calz) (v : Q) : res Z :=
  if Qeq_bool (cz_bstep c) 0 then UB else Ok (Qround_away ((v - cz_bstart c) / cz_bstep c)).

Section Pow.
  (** pow(10, x) *)
  Context (pow10 : Q -> Q).
  (** fluxcorrectioncalzetti.cpp:64-80: m_dataDustCoeff, one row per E(B-V).  [n] is ebmv_n converted to Int32.  A negative n makes
      a huge size (std::length_error) unless the table is empty. *)
  Definition dust_row (start step : Q) (data : list Q) (k : nat) : list Q :=
    map (fun d => pow10 (-(4#10) * d * ebmv_value start step (Z.of_nat k))) data.
  Definition dust_table (start step : Q) (data : list Q) (n : nat) : list Q := flat_map (dust_row start step data) (seq 0 n).
  Definition NewCalzetti (cc : calzcorr) (start step : Q) (n : Z) : res calz :=
    match cc_lbda cc with
    | [] => UB
    | a :: t =>
        if ((n <? 0)%Z && negb (Nat.eqb (length (cc_corr cc)) 0))%bool then Throw STD_length_error
        else Ok (mkCalz (cc_corr cc) n step start (dust_table start step (cc_corr cc) (Z.to_nat n)) a (last t a) (cc_step cc))
    end.
End Pow.

(** GetDustCoeff, fluxcorrectioncalzetti.cpp:92-103.  The index is Int32 * size_t + Int32: a negative kDust gives a huge index. *)
Definition GetDustCoeff (c : calz) (k : Z) (lam : Q) : res Q :=
  if (cz_n c <=? k)%Z then Throw INTERNAL_ERROR
  else if (Qle_bool (cz_min c) lam && Qltb lam (cz_max c))%bool then
    zget (cz_coef c) (k * Z.of_nat (length (cz_data c)) + Qround_away ((lam - cz_min c) / cz_step c))
  else Ok 1.
