(** What the discrete distributions are: probabilities of sets of sequences of independent trials, and proportions of draws. *)
From Coq Require Import Reals Lra.
From Verif Require Import Base.
Open Scope R_scope.
Open Scope list_scope.

(** the sequences of n trials; true: a success *)
Fixpoint outcomes (n : nat) : list (list bool) :=
  match n with O => [[]] | S n' => map (cons true) (outcomes n') ++ map (cons false) (outcomes n') end.
Definition successes (o : list bool) : nat := count_occ Bool.bool_dec o true.
(** the probability of one sequence of independent trials *)
Fixpoint chance (p : R) (o : list bool) : R := match o with [] => 1 | b :: r => (if b then p else 1 - p) * chance p r end.
Fixpoint rsum (l : list R) : R := match l with [] => 0 | x :: r => x + rsum r end.
(** the probability that the sequence of the n trials is one of those that satisfy the test *)
Definition probability (p : R) (n : nat) (test : list bool -> bool) : R := rsum (map (chance p) (filter test (outcomes n))).
(** exactly x successes in n trials *)
Definition binomial_prob (p : R) (n x : nat) : R := probability p n (fun o => Nat.eqb (successes o) x).
(** the first success comes after exactly x failures *)
Definition geometric_prob (p : R) (x : nat) : R := chance p (repeat false x ++ [true]).
(** the n-th success comes with exactly x failures before: n + x trials with n successes of which the last is one *)
Definition negbin_prob (p : R) (n x : nat) : R :=
  probability p (n + x) (fun o => Nat.eqb (successes o) n && last o false).

(** the number of ways to choose k out of n *)
Definition ways (n k : nat) : nat := length (filter (fun o => Nat.eqb (successes o) k) (outcomes n)).

(** the draws of k balls from an urn *)
Fixpoint draws {A} (k : nat) (urn : list A) : list (list A) :=
  match k, urn with
  | O, _ => [[]]
  | S _, [] => []
  | S k', a :: r => map (cons a) (draws k' r) ++ draws k r
  end.
(** of m white (true) and n black balls k are drawn: the proportion of the draws with x white balls *)
Definition hyper_prob (m n k x : nat) : R :=
  let all := draws k (repeat true m ++ repeat false n) in
  INR (length (filter (fun d => Nat.eqb (successes d) x) all)) / INR (length all).

(** f 0 + ... + f (n - 1) *)
Definition total (f : nat -> R) (n : nat) : R := rsum (map f (seq 0 n)).
(** x is the quantile of p: the least number at which the sums of f reach p *)
Definition is_quantile (f : nat -> R) (p : R) (x : nat) : Prop := p <= total f (S x) /\ total f x < p.
(** the least number at which they exceed p *)
Definition is_upper_quantile (f : nat -> R) (p : R) (x : nat) : Prop := p < total f (S x) /\ total f x <= p.
