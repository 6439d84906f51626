(** Model of CPriorHelper (RedshiftLibrary/src/lib/statistics/priorhelper.cpp, RedshiftLibrary/statistics/priorhelper.h): the prior tables p(ebv, template | z), p(A), p(z).
    A file is the list of its lines, a line its tokens (None: not a number); the directory is the list of its files.  Values are rationals, the logarithms are real numbers.
    Not modelled: the paths (the existence of the files is given), "nan" or "inf" in a file (not read as numbers by the streams), a number glued to other text, logs. *)
From Coq Require Import String Reals Qreals.
From Verif Require Import Base MatchModel MeikModel EfitModel.
Open Scope Q_scope.

Definition nZ : nat := 24.
Definition nEbv : nat := 10.
Definition dz : Q := 1 # 4.
Definition z0 : Q := 0.
Definition priorminval : Q := 0.
Definition deltaA : Q := (1 # 10000000000000) - (1 # 100000000000000000000).
Inductive line := Comment | Values (l : list (option Q)).
(** priorhelper.h:58-70 *)
Record entry := mkEntry { e_p : Q; e_sigma : Q; e_mean : Q }.
Record helper := mkHelper { h_failed : bool; h_names : list string; h_data : list (list (list entry)); h_pz : list Q; h_bA : Q; h_bTE : Q; h_bZ : Q }.

(** priorhelper.cpp:243-250: [iss >> x] gives 0 and stops the stream at the first token which is not a number; at the end of the line x keeps its initial 0 *)
Fixpoint line_values (n : nat) (l : list (option Q)) : list Q :=
  match n with
  | O => []
  | S m => match l with
           | Some x :: t => (if Qle_bool x 0 then priorminval else x) :: line_values m t
           | _ => priorminval :: line_values m []
           end
  end.
(** loadFileEZ :224-256, the number of lines is not checked *)
Fixpoint loadFileEZ (f : list line) : list (list Q) :=
  match f with
  | [] => []
  | Comment :: t => loadFileEZ t
  | Values l :: t => line_values nEbv l :: loadFileEZ t
  end.
(** loadFileZ :258-289; a line without any token leaves x without a value *)
Fixpoint z_values (f : list line) : res (list Q) :=
  match f with
  | [] => Ok []
  | Comment :: t => z_values t
  | Values [] :: _ => UB
  | Values (v :: _) :: t => do r <- z_values t; Ok (match v with Some x => if Qltb x 0 then priorminval else x | None => 0 end :: r)
  end.
Definition loadFileZ (f : list line) : res (list Q) :=
  do r <- z_values f; if Nat.eqb (List.length r) nZ then Ok r else Throw INTERNAL_ERROR.
(** the loops of setEZTData, setAGaussmeanData, setAGausssigmaData :179-213 *)
Definition table (rows : list (list Q)) : res (list (list Q)) := mapr (fun kz => do r <- vget rows kz; mapr (vget r) (seq 0 nEbv)) (seq 0 nZ).

(** the files of one template; None: the file does not exist *)
Record tplfiles := mkFiles { t_name : string; t_ezt : list line; t_amean : option (list line); t_asigma : option (list line) }.
Definition exists_all {A} (g : tplfiles -> option A) (l : list tplfiles) : res (list A) :=
  mapr (fun t => match g t with Some f => Ok f | None => Throw INVALID_FILEPATH end) l.
Definition zip3 (p m s : list (list Q)) : list (list entry) :=
  map (fun x => map (fun y => mkEntry (fst y) (snd (snd y)) (fst (snd y))) (combine (fst x) (combine (fst (snd x)) (snd (snd x))))) (combine p (combine m s)).
(** Init :54-126; the names kept are the names of the files (:86-90) *)
Definition Init (dir : option (list tplfiles * option (list line))) (bA bTE bZ : Q) : res helper :=
  match dir with
  | None => Ok (mkHelper true [] [] [] bA bTE bZ)
  | Some (ts, zf) =>
    do ms <- exists_all t_amean ts;
    do ss <- exists_all t_asigma ts;
    do p <- mapr (fun t => table (loadFileEZ (t_ezt t))) ts;
    do m <- mapr (fun f => table (loadFileEZ f)) ms;
    do s <- mapr (fun f => table (loadFileEZ f)) ss;
    match zf with
    | None => Throw INVALID_FILEPATH
    | Some f =>
      do pz <- loadFileZ f;
      Ok (mkHelper false (map t_name ts) (map (fun x => zip3 (fst x) (fst (snd x)) (snd (snd x))) (combine p (combine m s))) pz bA bTE bZ)
    end
  end.

(** getTemplateIndex :388-397 *)
Fixpoint find_name (n : string) (l : list string) (k : nat) : option nat :=
  match l with [] => None | x :: t => if String.eqb x n then Some k else find_name n t (S k) end.
Definition getTemplateIndex (h : helper) (n : string) : res nat := match find_name n (h_names h) 0 with Some k => Ok k | None => Throw INTERNAL_ERROR end.
(** getRedshiftIndex :399-414 *)
Definition getRedshiftIndex (z : Q) (mode : Z) : res Z :=
  let idz := to_int ((z - z0) / dz) in
  if (Z.eqb mode 1 && ((idz <? 0) || (Z.of_nat nZ <=? idz))%Z)%bool then Throw INTERNAL_ERROR
  else if Z.eqb mode 0 then Ok (Z.min (Z.max idz 0) (Z.of_nat nZ)) else Ok idz.
(** SPriorTZE with its precomputed logarithms *)
Record tze := mkTze { q_entry : entry; q_lA : R; q_lTE : R; q_lZ : R; q_bA : Q; q_bTE : Q; q_bZ : Q }.
(** fillPriorDataPerZ :338-367; the logarithm of a positive number is always valid *)
Definition fill (h : helper) (idz : Z) (e : entry) : res tze :=
  if Qle_bool (e_p e) 0 then Throw INTERNAL_ERROR
  else
    do pz <- zget (h_pz h) idz;
    Ok (mkTze e (if Qltb 0 (e_sigma e) then - / 2 * ln (2 * PI) - ln (Q2R (e_sigma e)) else ln (1 / Q2R deltaA))%R (ln (Q2R (e_p e)))
              (if Qltb 0 pz then ln (Q2R pz / Q2R dz) else 0)%R (h_bA h) (h_bTE h) (h_bZ h)).
(** GetTplPriorData :301-336 *)
Definition GetTplPriorData (h : helper) (n : string) (zs : list Q) (mode : Z) : res (list (list tze)) :=
  if (Qle_bool (h_bA h) 0 && Qle_bool (h_bTE h) 0 && Qle_bool (h_bZ h) 0)%bool then Throw INTERNAL_ERROR
  else if h_failed h then Ok []
  else
    do idx <- getTemplateIndex h n;
    mapr (fun z =>
      do idz <- getRedshiftIndex z mode;
      do d <- vget (h_data h) idx;
      do l <- zget d idz;
      mapr (fill h idz) l) zs.
(** GetTZEPriorData :369-386 *)
Definition GetTZEPriorData (h : helper) (n : string) (ebv : Z) (z : Q) (mode : Z) : res tze :=
  if ((ebv <? 0) || (Z.of_nat nEbv - 1 <? ebv))%Z then Throw INTERNAL_ERROR
  else
    do l <- GetTplPriorData h n [z] mode;
    do r <- vget l 0;
    zget r ebv.
