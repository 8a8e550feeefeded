(** Specification vocabulary for the running statistics: what a history of data should give,
    defined on the whole history and without reference to the update formulas. *)
From Coq Require Import QArith.
From Verif Require Import Base.
Open Scope list_scope.
Open Scope Z_scope.

(** ** Histories of booleans *)
Definition true_at (h : list bool) (i : nat) : Prop := nth_error h i = Some true.
(** the [n] entries from position [i] on exist and are all true *)
Definition all_true (h : list bool) (i n : nat) : Prop :=
  (i + n <= length h)%nat /\ forall k, (i <= k < i + n)%nat -> true_at h k.
(** a maximal run of true starts at [i] *)
Definition starts_run (h : list bool) (i : nat) : Prop :=
  true_at h i /\ (i = O \/ exists j, i = S j /\ ~ true_at h j).
(** [l] lists the positions satisfying [P], each once *)
Definition lists (P : nat -> Prop) (l : list nat) : Prop := NoDup l /\ forall i, In i l <-> P i.
Definition how_many (P : nat -> Prop) (n : Z) : Prop := exists l, lists P l /\ Z.of_nat (length l) = n.
(** the run in progress has length [n] *)
Definition current_run (h : list bool) (n : nat) : Prop :=
  (n <= length h)%nat /\ all_true h (length h - n) n /\
  forall m, (m <= length h)%nat -> all_true h (length h - m) m -> (m <= n)%nat.
(** the longest run has length [n] *)
Definition longest_run (h : list bool) (n : nat) : Prop :=
  (exists i, all_true h i n) /\ forall i m, all_true h i m -> (m <= n)%nat.

(** ** Weighted data *)
Definition qsum (l : list Q) : Q := fold_right Qplus 0%Q l.
(** data are pairs (x, w) *)
Definition total_weight (d : list (Q * Q)) : Q := qsum (map snd d).
Definition batch_mean (d : list (Q * Q)) : Q := (qsum (map (fun p => snd p * fst p) d) / total_weight d)%Q.
Definition batch_var (d : list (Q * Q)) : Q :=
  (qsum (map (fun p => snd p * ((fst p - batch_mean d) * (fst p - batch_mean d))) d) / total_weight d)%Q.
(** no prefix of the data (but the empty one) has total weight 0 *)
Definition proper_weights (d : list (Q * Q)) : Prop :=
  forall n, (0 < n <= length d)%nat -> ~ (total_weight (firstn n d) == 0)%Q.
Definition positive_weights (d : list (Q * Q)) : Prop := Forall (fun p => (0 < snd p)%Q) d.

(** vector data: pairs (x vector, w) *)
Definition comp (i : nat) (d : list (list Q * Q)) : list (Q * Q) := map (fun p => (nth i (fst p) 0%Q, snd p)) d.
Definition batch_cov (i j : nat) (d : list (list Q * Q)) : Q :=
  let mi := batch_mean (comp i d) in
  let mj := batch_mean (comp j d) in
  (qsum (map (fun p => snd p * ((nth i (fst p) 0 - mi) * (nth j (fst p) 0 - mj))) d)
   / total_weight (comp i d))%Q.

(** the last [n] items *)
Definition lastn {A} (n : nat) (l : list A) : list A := skipn (length l - n) l.

(** exponentially fading weights: the k-th datum from the end has weight alpha (1-alpha)^k *)
Fixpoint fading (alpha : Q) (newest_first : list Q) : Q :=
  match newest_first with
  | [] => 0%Q
  | x :: l => (alpha * x + (1 - alpha) * fading alpha l)%Q
  end.

(** sums of the suffixes of a list of integers *)
Definition suffix_sum (l : list Z) (k : nat) : Z := fold_right Z.add 0 (skipn k l).

Open Scope Q_scope.
(** the data a window should hold after a history, sizes given with the data *)
Fixpoint kept (ds : list (Q * Q * Z)) (d : list (Q * Q)) : list (Q * Q) :=
  match ds with
  | [] => d
  | (x, w, k) :: ds' => kept ds' (lastn (Z.to_nat k) (d ++ [(x, w)]))
  end.
Fixpoint qpow (a : Q) (n : nat) : Q := match n with O => 1 | S n => a * qpow a n end.
