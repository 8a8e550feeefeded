(** Properties C04 (shared cells) and C65 (shared pool items) under every schedule of any number of threads. *)
From Verif Require Import Base ScopeModel ConcModel ConcSpec ConcProofs.
Open Scope string_scope.
Open Scope list_scope.
Open Scope Z_scope.

(** Running a given schedule *)
Fixpoint play (sched : list nat) (t : list label) (s : shared) : option (list label * shared) :=
  match sched with
  | [] => Some (t, s)
  | i :: sched' => match step i s with Some (l, s') => play sched' (t ++ [l]) s' | None => None end
  end.
Lemma play_execution sched s0 : forall t s t' s',
  execution s0 t s -> play sched t s = Some (t', s') -> execution s0 t' s'.
Proof.
  induction sched as [|i sched IH]; intros t s t' s' He H; cbn in H.
  - now injection H as <- <-.
  - destruct (step i s) as [[l s1]|] eqn:Es; [|discriminate]. eapply IH; [|exact H]. econstructor; eauto.
Qed.

(** *** C04 *)
(** Whatever the threads do and however they interleave: when nobody is in the middle of an update of c and no update
    of c has raised, the values returned by the updates of c are what the update functions produce one after the other,
    in the order in which the lock was taken, each from the value left by the one before; and the last of them is in the cell. *)
Theorem C04_cell_serial : forall s0 t s c,
  start s0 -> execution s0 t s -> ~ cell_failed c t -> cell_quiet c s ->
  serial (c_val s0 c) (cell_updates c t) (cell_results c t) /\
  c_val s c = last (cell_results c t) (c_val s0 c).
Proof. exact cell_serial. Qed.
Print Assumptions C04_cell_serial.

(** Threads that only apply functions to one cell: when all are done the cell holds the result of applying all the
    functions of all threads, merged in some way that keeps each thread's order. *)
Theorem C04_all_updates_applied : forall s0 t s c (gs : nat -> list (val -> val)),
  start s0 -> (forall i, threads s0 i = TRun (update_all c (gs i))) ->
  execution s0 t s -> finished s ->
  exists m, merges gs m /\ c_val s c = fold_left (fun v g => g v) (map snd m) (c_val s0 c).
Proof.
  intros s0 t s c gs H0 Hg He Hf. destruct (updaters_inv s0 t s c gs Hg He) as [Hn (m & Hm & Hu)].
  exists m. split.
  - intros i. destruct (Hm i) as (rest & Er & Hi). rewrite Hf in Hi.
    destruct Hi as [E|[[g E]|[[v E]|[E|[v E]]]]]; try discriminate E.
    destruct rest; [now rewrite app_nil_r in Er|discriminate].
  - destruct (cell_serial s0 t s c H0 He Hn (finished_quiet s c Hf)) as [Hs ->]. rewrite Hu in Hs.
    now apply serial_fold.
Qed.
Print Assumptions C04_all_updates_applied.

(** In particular counters count: n threads adding 1 to a cell k(i) times each leave the sum. *)
Definition incr (v : val) : val := match v with VInt z => VInt (z + 1) | _ => v end.
Theorem C04_counter : forall s0 t s c z (k : nat -> nat) n,
  start s0 -> c_val s0 c = VInt z ->
  (forall i, threads s0 i = TRun (update_all c (if Nat.ltb i n then repeat incr (k i) else []))) ->
  execution s0 t s -> finished s ->
  c_val s c = VInt (z + Z.of_nat (list_sum (map k (seq 0 n)))).
Proof.
  intros s0 t s c z k n H0 Hz Hg He Hf.
  destruct (C04_all_updates_applied s0 t s c (fun i => if Nat.ltb i n then repeat incr (k i) else []) H0 Hg He Hf) as (m & Hm & ->).
  rewrite Hz. clear - Hm.
  assert (Hall : forall x, In x m -> snd x = incr).
  { intros [i g] Hin. assert (Hp : In g (part i m)).
    { unfold part. apply in_map_iff. exists (i, g). split; [reflexivity|]. apply filter_In. cbn. rewrite Nat.eqb_refl. auto. }
    rewrite Hm in Hp. destruct (Nat.ltb i n); [now apply repeat_spec in Hp|destruct Hp]. }
  assert (Hfold : forall z, fold_left (fun v (g : val -> val) => g v) (map snd m) (VInt z) = VInt (z + Z.of_nat (length m))).
  { clear Hm. induction m as [|x m IH]; intros z'; cbn [map fold_left length]; [f_equal; lia|].
    rewrite (Hall x) by (now left). cbn [incr]. rewrite IH by (intros; apply Hall; now right). f_equal. lia. }
  rewrite Hfold. do 3 f_equal.
  assert (Hlen : forall n' (m : list (nat * (val -> val))), (forall x, In x m -> (fst x < n')%nat) ->
     length m = list_sum (map (fun i => length (part i m)) (seq 0 n'))).
  { clear. intros n'. induction m as [|[i g] m IH]; intros H.
    - cbn. clear. induction (seq 0 n'); [reflexivity|exact IHl].
    - cbn [length]. rewrite IH by (intros; apply H; now right). clear IH.
      assert (Hi : (i < n')%nat) by (apply (H (i, g)); now left).
      assert (HS : list_sum (map (fun j => length (part j ((i, g) :: m))) (seq 0 n')) =
              (list_sum (map (fun j => if Nat.eqb i j then 1%nat else 0%nat) (seq 0 n')) +
               list_sum (map (fun j => length (part j m)) (seq 0 n')))%nat).
      { induction (seq 0 n') as [|j l IHl]; [reflexivity|]. cbn [map list_sum fold_right].
        unfold list_sum in IHl. unfold list_sum. cbn [fold_right map]. rewrite IHl.
        unfold part. cbn [filter fst]. destruct (Nat.eqb i j); cbn [map length]; lia. }
      rewrite HS. enough (E : forall a b, (a <= i < a + b)%nat ->
         list_sum (map (fun j => if Nat.eqb i j then 1%nat else 0%nat) (seq a b)) = 1%nat) by (rewrite E; lia).
      clear. intros a b; revert a. induction b as [|b IH]; intros a Ha; [lia|]. cbn [seq map list_sum fold_right].
      unfold list_sum in *. cbn [fold_right]. destruct (Nat.eqb_spec i a) as [->|Hne].
      + enough (E : forall c, (a < c)%nat -> fold_right Nat.add 0%nat (map (fun j => if Nat.eqb a j then 1%nat else 0%nat) (seq c b)) = 0%nat)
          by (rewrite E; lia).
        clear. induction b as [|b IH]; intros c Hc; [reflexivity|]. cbn [seq map fold_right].
        destruct (Nat.eqb_spec a c); [lia|]. rewrite IH; lia.
      + rewrite IH; lia. }
  rewrite (Hlen n m).
  - f_equal. apply map_ext_in. intros i Hi. apply in_seq in Hi. rewrite Hm.
    destruct (Nat.ltb_spec i n); [apply repeat_length|lia].
  - intros [i g] Hin. cbn. destruct (Nat.ltb_spec i n) as [|Hge]; [assumption|exfalso].
    assert (Hp : In g (part i m)).
    { unfold part. apply in_map_iff. exists (i, g). split; [reflexivity|]. apply filter_In. cbn. rewrite Nat.eqb_refl. auto. }
    rewrite Hm in Hp. destruct (Nat.ltb_spec i n); [lia|destruct Hp].
Qed.
Print Assumptions C04_counter.

(** As long as no update raises, threads never wait for each other in a circle: some unfinished thread can go on. *)
Theorem C04_no_deadlock : forall s0 t s j,
  start s0 -> execution s0 t s ->
  (forall c, ~ cell_failed c t) -> (forall p h, ~ item_failed p h t) ->
  threads s j <> TRun PEnd -> exists i l s', step i s = Some (l, s').
Proof. intros s0 t s j H0 He Hc Hp Hj. exact (progress s0 t s j H0 He (conj Hc Hp) Hj). Qed.
Print Assumptions C04_no_deadlock.

(** The two threads of the example add 1 to the cell twice and three times; the schedule switches inside updates. *)
Definition ex_start (ps : nat -> prog) (items : string -> string -> option val) : shared :=
  Shared (fun _ => VInt 10) (fun _ => None) items (fun _ => None) (fun _ _ => None) (fun i => TRun (ps i)).
Lemma ex_starts ps items : start (ex_start ps items).
Proof. split; [intros i; now exists (ps i)|]. repeat split. Qed.
Definition ex_k (i : nat) : nat := match i with O => 2%nat | 1%nat => 3%nat | _ => 0%nat end.
Definition ex_sched : list nat :=
  [0; 0; 0; 0; 0; 1; 1; 1; 1; 1; 0; 0; 0; 0; 0; 1; 1; 1; 1; 1; 1; 1; 1; 1; 1]%nat.
Example C04_ex : exists t s,
  let s0 := ex_start (fun i => update_all "c" (if Nat.ltb i 2 then repeat incr (ex_k i) else [])) (fun _ _ => None) in
  execution s0 t s /\ finished s /\ c_val s "c" = VInt 15.
Proof.
  set (s0 := ex_start _ _).
  destruct (play ex_sched [] s0) as [[t s]|] eqn:E; [|vm_compute in E; discriminate].
  exists t, s. cbn zeta. assert (He : execution s0 t s) by (eapply play_execution; [constructor|exact E]).
  vm_compute in E. injection E as <- <-. split; [exact He|]. split.
  - intros [|[|i]]; reflexivity.
  - reflexivity.
Qed.
(** a thread that must wait: thread 1 cannot start while thread 0 is inside its update *)
Example C04_ex_waits : exists t s,
  execution (ex_start (fun i => update_all "c" [incr]) (fun _ _ => None)) t s /\ step 1 s = None /\ step 0 s <> None.
Proof.
  set (s0 := ex_start _ _).
  destruct (play [0; 0]%nat [] s0) as [[t s]|] eqn:E; [|vm_compute in E; discriminate].
  exists t, s. assert (He : execution s0 t s) by (eapply play_execution; [constructor|exact E]).
  vm_compute in E. injection E as <- <-. split; [exact He|]. split; [reflexivity|discriminate].
Qed.

(** An update that raises keeps the lock: every later update of that cell waits forever (the lock of C05 seen by other threads). *)
Theorem C05_others_wait_refuted : exists s0 t s,
  start s0 /\ execution s0 t s /\ cell_quiet "c" s /\
  threads s 1 = TRun (update_all "c" [incr]) /\ (forall i, step i s = None).
Proof.
  set (ps := fun i => match i with O => PCellTo "c" (fun _ => CRaise (UserErr "no" None)) (fun _ => PEnd)
                              | 1%nat => update_all "c" [incr] | _ => PEnd end).
  set (s0 := ex_start ps (fun _ _ => None)).
  destruct (play [0; 0; 0]%nat [] s0) as [[t s]|] eqn:E; [|vm_compute in E; discriminate].
  exists s0, t, s. assert (He : execution s0 t s) by (eapply play_execution; [constructor|exact E]).
  vm_compute in E. injection E as <- <-. split; [apply ex_starts|]. split; [exact He|].
  split; [intros [|[|i]]; exact I|]. split; [reflexivity|]. intros [|[|i]]; reflexivity.
Qed.
Print Assumptions C05_others_wait_refuted.

(** *** C65 *)
(** The same for an item of a shared pool, as long as nobody deletes it: the first update starts from its init when
    there was no such item. *)
Theorem C65_item_serial : forall s0 t s p h,
  start s0 -> execution s0 t s -> ~ item_failed p h t -> ~ item_deleted p h t -> item_quiet p h s ->
  item_serial (p_val s0 p h) (item_updates p h t) (item_results p h t) /\
  p_val s p h = item_after (p_val s0 p h) (item_results p h t).
Proof. exact pool_serial. Qed.
Print Assumptions C65_item_serial.

Definition p_incr : prog := PPoolTo "p" "a" (VInt 0) (fun v => CRet (incr v)) (fun _ => PEnd).
Example C65_ex : exists t s,
  execution (ex_start (fun i => if Nat.ltb i 3 then p_incr else PEnd) (fun _ _ => None)) t s /\
  finished s /\ p_val s "p" "a" = Some (VInt 3) /\ item_results "p" "a" t = [VInt 1; VInt 2; VInt 3].
Proof.
  set (s0 := ex_start _ _).
  (* thread 2 waits for the item while holding the lock of the lock table; thread 0 finishes nevertheless *)
  destruct (play [0; 0; 0; 2; 0; 0; 0; 0; 0; 0; 2; 2; 2; 2; 1; 2; 2; 2; 1; 1; 1; 1; 1; 1; 1]%nat [] s0) as [[t s]|] eqn:E;
    [|vm_compute in E; discriminate].
  exists t, s. assert (He : execution s0 t s) by (eapply play_execution; [constructor|exact E]).
  vm_compute in E. injection E as <- <-. split; [exact He|]. split; [|split; reflexivity].
  intros [|[|[|i]]]; reflexivity.
Qed.

(** pool-del takes no lock: a deletion in the middle of an update makes the update raise KeyError, which moreover
    leaves the item locked for good. *)
Theorem C65_delete_refuted : exists s0 t s i,
  start s0 /\ execution s0 t s /\
  In (ItemFail i "p" "a" (PyErr "KeyError")) t /\ p_val s0 "p" "a" = Some (VInt 1) /\
  threads s 2 <> TRun PEnd /\ (forall i, step i s = None).
Proof.
  set (ps := fun i => match i with O => p_incr | 1%nat => PPoolDel "p" "a" PEnd | 2%nat => p_incr | _ => PEnd end).
  set (s0 := ex_start ps (fun _ _ => Some (VInt 1))).
  destruct (play [0; 0; 0; 0; 1; 0; 2]%nat [] s0) as [[t s]|] eqn:E; [|vm_compute in E; discriminate].
  exists s0, t, s, 0%nat. assert (He : execution s0 t s) by (eapply play_execution; [constructor|exact E]).
  vm_compute in E. injection E as <- <-. split; [apply ex_starts|]. split; [exact He|].
  split; [cbn; auto 10|]. split; [reflexivity|]. split; [discriminate|]. intros [|[|[|i]]]; reflexivity.
Qed.
Print Assumptions C65_delete_refuted.
