(** Vocabulary for C61. *)
From Verif Require Import Base.
Open Scope Q_scope.

(** sum of f i for b <= i < b + n *)
Fixpoint sigma (f : nat -> Q) (b n : nat) : Q := match n with O => 0 | S k => f b + sigma f (S b) k end.
Definition at_ (l : list Q) (i : nat) : Q := nth i l 0.
(** the integral between samples b and e of the function which joins the samples by straight lines *)
Definition piecewise_linear_integral (xs ys : list Q) (b e : nat) : Q :=
  sigma (fun i => (at_ xs (S i) - at_ xs i) * (at_ ys i + at_ ys (S i)) / 2) b (e - b).
(** that integral is a weighted sum of the samples; the weight of a sample: half the length of the intervals of [b, e] it borders *)
Definition weight_of (xs : list Q) (b e i : nat) : Q :=
  ((if Nat.ltb i e then at_ xs (S i) - at_ xs i else 0) + (if Nat.ltb b i then at_ xs i - at_ xs (i - 1) else 0)) / 2.
(** variance of the integral when the samples are independent with standard deviations es *)
Definition variance_of_integral (xs es : list Q) (b e : nat) : Q :=
  sigma (fun i => weight_of xs b e i * weight_of xs b e i * (at_ es i * at_ es i)) b (S e - b).

(** weighted mean and variance of samples given with their weights *)
Definition wsum (f : Q * Q -> Q) (l : list (Q * Q)) : Q := fold_right (fun p acc => f p + acc) 0 l.
Definition total (l : list (Q * Q)) : Q := wsum snd l.
(** m is the weighted mean: the weighted deviations cancel *)
Definition is_mean (l : list (Q * Q)) (m : Q) : Prop := wsum (fun p => snd p * (fst p - m)) l == 0.
Definition deviations (l : list (Q * Q)) (m : Q) : Q := wsum (fun p => snd p * ((fst p - m) * (fst p - m))) l.
(** the selected samples, each with the inverse of the square of its error as weight *)
Fixpoint selected (mask : list bool) (ys es : list Q) : list (Q * Q) :=
  match mask, ys, es with
  | m :: mt, y :: yt, e :: et => (if m then [(y, 1 / (e * e))] else []) ++ selected mt yt et
  | _, _, _ => []
  end.
