(** Specification vocabulary for link functions and naive Bayes models. *)
From Coq Require Import Reals.
From Verif Require Import Base.
Open Scope list_scope.
Open Scope R_scope.

Definition rtotal (l : list R) : R := fold_right Rplus 0 l.
Definition product (l : list R) : R := fold_right Rmult 1 l.
(** the density of the normal distribution *)
Definition normal_density (x mu v : R) : R := / sqrt (2 * PI * v) * exp (- ((x - mu) ^ 2 / (2 * v))).
(** the probability that the features in [datum], and no others, are present *)
Definition presence (datum : list string) (k : string) (p : R) : R := if in_dec string_dec k datum then p else 1 - p.
