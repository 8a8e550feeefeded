(** C55: random values. *)
From Coq Require Import SpecFloat Permutation Reals Lra.
From Flocq Require Import Core BinarySingleNaN.
From Verif Require Import Base PyNum Effects ArrayModel ArrayProofs StrModel StrSpec StrProofs FloatBridge CastProps FloatBridge2 RandModel RandSpec RandProofs RandProofs2.
Open Scope string_scope.
Open Scope list_scope.
Open Scope Z_scope.

(** a generator for the examples: it answers from a list, and 0 afterwards *)
Definition from_list : Z -> M (list Z) Z := fun n s => match s with k :: s' => (Ok (k mod n), s') | [] => (Ok 0, []) end.
Lemma from_list_fair : fair from_list.
Proof.
  intros n s H. destruct s as [|k s]; cbn; [exists 0, []|exists (k mod n), s]; split; auto; [lia|]. apply Z.mod_pos_bound. auto.
Qed.

Section C55.
  Context {S : Type} (draw : Z -> M S Z).
  Definition bounded (r : M S Z) (low high : Z) : Prop := forall s, exists x s', r s = (Ok x, s') /\ low <= x < high.

  (** rand.int and rand.long *)
  Theorem C55_int : fair draw ->
    bounded (r_int0 draw) (- 2 ^ 31) (2 ^ 31) /\ bounded (r_long0 draw) (- 2 ^ 63) (2 ^ 63) /\
    forall low high, low < high -> bounded (r_int draw low high) low high /\ bounded (r_long draw low high) low high.
  Proof using.
    intros F. unfold bounded. split; [|split]; [| |intros low high H; split]; intros s.
    - destruct (randint_spec draw F (- 2 ^ 31) (2 ^ 31 - 1) s) as (k & s' & E & L); [lia|]. exists k, s'. split; [exact E|lia].
    - destruct (randint_spec draw F (- 2 ^ 63) (2 ^ 63 - 1) s) as (k & s' & E & L); [lia|]. exists k, s'. split; [exact E|lia].
    - unfold r_int. destruct (Z.leb_spec high low); [lia|]. destruct (randint_spec draw F low (high - 1) s) as (k & s' & E & L); [lia|]. exists k, s'. split; [exact E|lia].
    - unfold r_long. destruct (Z.leb_spec high low); [lia|]. destruct (randint_spec draw F low (high - 1) s) as (k & s' & E & L); [lia|]. exists k, s'. split; [exact E|lia].
  Qed.
  (** an empty range is an error and draws nothing *)
  Theorem C55_int_empty : forall low high s, high <= low -> r_int draw low high s = (Raise (PFAErr 34000), s) /\ r_long draw low high s = (Raise (PFAErr 34010), s).
  Proof using. intros low high s H. unfold r_int, r_long. destruct (Z.leb_spec high low); [|lia]. auto. Qed.

  (** rand.choice, rand.choices, rand.sample *)
  Theorem C55_choice : fair draw -> forall A (population : list A) s, population <> [] -> exists x s', r_choice draw population s = (Ok x, s') /\ In x population.
  Proof using.
    intros F A population s NE. unfold r_choice. destruct (Z.eqb_spec (zlen population) 0) as [E|E]; [destruct population; [congruence|unfold zlen in E; cbn in E; lia]|].
    apply pick_ok; auto. unfold zlen in *. lia.
  Qed.
  Theorem C55_choices : fair draw -> forall A (population : list A) size s, population <> [] ->
    exists xs s', r_choices draw size population s = (Ok xs, s') /\ Forall (fun x => In x population) xs /\ length xs = Z.to_nat size.
  Proof using.
    intros F A population size s NE. unfold r_choices. destruct (Z.eqb_spec (zlen population) 0) as [E|E]; [destruct population; [congruence|unfold zlen in E; cbn in E; lia]|].
    destruct (mapM_all (fun _ : nat => i <~ randint draw 0 (zlen population - 1) ;; get population i) (fun x => In x population)) with (l := seq 0 (Z.to_nat size)) (s := s) as (ys & s' & E1 & E2 & E3).
    { intros _ s0. apply pick_ok; auto. unfold zlen in *. lia. }
    exists ys, s'. rewrite E3, seq_length. auto.
  Qed.
  (** the redrawing loop of random.sample ends only if the generator reaches an unused position: it is given fuel *)
  Theorem C55_sample : fair draw -> forall use_pool fuel A (population : list A) size s, 0 <= size <= zlen population -> population <> [] ->
    (exists xs s', r_sample draw use_pool fuel size population s = (Ok xs, s') /\ zlen xs = size /\ without_replacement xs population) \/
    (use_pool (zlen population) size = false /\ exists s', r_sample draw use_pool fuel size population s = (Raise (PyErr "out of fuel"), s')).
  Proof using.
    intros F use_pool fuel A population size s H NE. unfold r_sample, py_sample.
    assert (P : 0 < zlen population). { destruct population; [congruence|]. unfold zlen. cbn. lia. }
    destruct (Z.eqb_spec (zlen population) 0) as [E|_]; [lia|]. destruct (Z.ltb_spec (zlen population) size); [lia|]. destruct (Z.ltb_spec size 0); [lia|]. cbn [orb].
    destruct (use_pool (zlen population) size).
    - left. destruct (sample_pool_ok draw F (Z.to_nat size) (length population) population s) as (xs & s' & E & L & W). { unfold zlen in *. lia. }
      rewrite firstn_all in W. exists xs, s'. split; [exact E|]. split; auto. unfold zlen. lia.
    - pose proof (sample_set_ok draw F fuel population P (Z.to_nat size) [] s) as G. destruct (sample_set draw fuel (Z.to_nat size) (zlen population) [] population s) as [[xs|e] s'].
      + left. destruct G as (idx & L & ND & B & E). destruct (set_result _ _ _ _ L ND B E) as [L2 W]. exists xs, s'. split; auto. split; auto. unfold zlen. lia.
      + right. split; auto. exists s'. subst e. auto.
  Qed.
  (** a negative size is not one of the errors of rand.sample, unlike an excessive one *)
  Theorem C55_sample_negative_refuted : forall use_pool fuel A (population : list A) size s, population <> [] -> size < 0 ->
    r_sample draw use_pool fuel size population s = (Raise (PyErr "ValueError"), s).
  Proof using.
    intros use_pool fuel A population size s NE H. unfold r_sample, py_sample. destruct (Z.eqb_spec (zlen population) 0) as [E|_]; [destruct population; [congruence|unfold zlen in E; cbn in E; lia]|].
    destruct (Z.ltb_spec (zlen population) size); [unfold zlen in *; lia|]. destruct (Z.ltb_spec size 0); [|lia]. reflexivity.
  Qed.
  Theorem C55_population_errors : forall use_pool fuel A (population : list A) size s,
    r_choice draw (@nil A) s = (Raise (PFAErr 34040), s) /\ r_choices draw size (@nil A) s = (Raise (PFAErr 34050), s) /\
    r_sample draw use_pool fuel size (@nil A) s = (Raise (PFAErr 34060), s) /\
    (population <> [] -> zlen population < size -> r_sample draw use_pool fuel size population s = (Raise (PFAErr 34061), s)).
  Proof using.
    intros. repeat split; auto. intros NE H. unfold r_sample. destruct (Z.eqb_spec (zlen population) 0) as [E|_]; [destruct population; [congruence|unfold zlen in E; cbn in E; lia]|].
    destruct (Z.ltb_spec (zlen population) size); [reflexivity|lia].
  Qed.

  (** rand.double lies in [low, high], provided that the difference does not overflow *)
  Theorem C55_double_partial : fair draw -> forall low high s, valid low -> valid high -> finite low -> finite high -> num_lt (NF low) (NF high) = true -> finite (fsub high low) ->
    exists x s', r_double draw low high s = (Ok x, s') /\ finite x /\ num_le (NF low) (NF x) = true /\ num_le (NF x) (NF high) = true.
  Proof using.
    intros F low high s Vl Vh Fl Fh L FD. pose proof L as L'. apply flt_val in L; auto. unfold r_double.
    destruct (num_le (NF high) (NF low)) eqn:E. { apply fle_val in E; auto. lra. }
    unfold uniform, random, bind. destruct (F (2 ^ 53) s) as (k & s' & E2 & K); [lia|]. rewrite E2. cbn [ret].
    destruct (uniform_val low high k Vl Vh Fl Fh L FD K) as (Vx & Fx & Bx & _). eexists _, s'. split; [reflexivity|]. split; [exact Fx|]. split; apply fle_val; auto; lra.
  Qed.

  (** rand.histogram: an index that is returned has a positive weight *)
  Lemma last_In {A} (l : list A) d : l <> [] -> In (last l d) l.
  Proof using. induction l as [|x l IH]; [congruence|]. intros _. destruct l; [left; auto|]. right. apply IH. discriminate. Qed.
  Lemma total_nonneg dist sums : Forall valid dist -> cumulative f0 dist = Ok sums -> nonneg (last sums f0) /\ valid (last sums f0).
  Proof using.
    intros V C. apply cumulative_sums in C. pose proof (sums_nonneg _ _ _ C ltac:(exact I) ltac:(reflexivity) V) as N. destruct sums as [|y r]; [split; [exact I|reflexivity]|].
    rewrite Forall_forall in N. apply N. apply last_In. discriminate.
  Qed.
  Theorem C55_histogram : fair draw -> forall dist s k s', Forall valid dist -> r_histogram draw dist s = (Ok (Some k), s') ->
    0 <= k < zlen dist /\ exists x, nth_error dist (Z.to_nat k) = Some x /\ num_lt (NF f0) (NF x) = true.
  Proof using.
    intros F dist s k s' V H. unfold r_histogram, select_index, lift, bind in H. destruct (cumulative f0 dist) as [sums|] eqn:C; [|discriminate].
    destruct (total_nonneg _ _ V C) as [N Vt]. cbv zeta in H. destruct (num_eq (NF (last sums f0)) (NF f0)); [discriminate|]. unfold uniform, random, bind in H.
    destruct (F (2 ^ 53) s) as (u & s1 & E & K); [lia|]. rewrite E in H.
    assert (H' : above (fadd f0 (fmul (fsub (last sums f0) f0) (unit_of u))) 0 (f0 :: sums) = Some k) by (unfold ret in H; congruence). clear H. rename H' into H.
    pose proof (position_not_negative _ _ N Vt K) as P. cbn [above] in H. rewrite P in H. pose proof (cumulative_sums _ _ _ C) as So.
    destruct (above_weight _ _ _ _ _ _ So P H) as (n & x & -> & E2 & E3). replace (0 + 1 - 1 + Z.of_nat n) with (Z.of_nat n) by lia. rewrite Nat2Z.id.
    assert (n < length dist)%nat by (apply nth_error_Some; congruence). unfold zlen. split; [lia|]. eauto.
  Qed.
  (** one is returned whenever the sum of the weights is a normal number: above 2^-1022 and not infinite *)
  Definition smallest_normal : pf := S754_finite false 4503599627370496 (-1074).
  Theorem C55_histogram_total_partial : fair draw -> forall dist sums s, Forall valid dist -> cumulative f0 dist = Ok sums -> finite (last sums f0) ->
    num_lt (NF smallest_normal) (NF (last sums f0)) = true -> exists k s', r_histogram draw dist s = (Ok (Some k), s').
  Proof using.
    intros F dist sums s V C Ft L. destruct (total_nonneg _ _ V C) as [N Vt]. apply flt_val in L; auto; try reflexivity.
    assert (B : fval smallest_normal = bpow radix2 (-1022)). { unfold fval, smallest_normal, SF2R, F2R. cbn [cond_Zopp Fnum Fexp]. change 4503599627370496 with (2 ^ 52). change (IZR (2 ^ 52)) with (bpow radix2 52). rewrite <- bpow_plus. reflexivity. }
    rewrite B in L. pose proof (bpow_gt_0 radix2 (-1022)) as BP. unfold r_histogram, select_index, lift, bind. rewrite C. cbv zeta.
    destruct (num_eq (NF (last sums f0)) (NF f0)) eqn:E0. { apply feq_val in E0; auto; try reflexivity. change (fval f0) with 0%R in E0. lra. }
    unfold uniform, random, bind. destruct (F (2 ^ 53) s) as (u & s1 & E & K); [lia|]. rewrite E. cbn [ret].
    pose proof (position_below _ _ Vt Ft L K) as P.
    destruct (above_found (fadd f0 (fmul (fsub (last sums f0) f0) (unit_of u))) (f0 :: sums) 0) as (k & A).
    { exists (last sums f0). split; auto. right. apply last_In. destruct sums; [|discriminate]. cbn in L. change (fval f0) with 0%R in L. lra. }
    exists k, s1. rewrite A. auto.
  Qed.
  Theorem C55_histogram_errors : forall dist s, 
    (Exists (fun x => isnan x || isinf x = true \/ num_lt (NF x) (NI 0) = true) dist -> exists e, r_histogram draw dist s = (Raise (PFAErr e), s) /\ (e = 34071 \/ e = 34072)) /\
    (Forall (fun x => x = S754_zero false) dist -> r_histogram draw dist s = (Raise (PFAErr 34070), s)).
  Proof using.
    intros dist s. unfold r_histogram, select_index, lift, bind. split; intros H.
    - assert (G : forall acc, exists e, cumulative acc dist = Raise (PFAErr e) /\ (e = 34071 \/ e = 34072)).
      { induction dist as [|x l IH]; [inversion H|]. intros acc. cbn [cumulative]. destruct (isnan x || isinf x) eqn:E1; [eexists; eauto|]. destruct (num_lt (NF x) (NI 0)) eqn:E2; [eexists; eauto|].
        inversion H as [? ? [X|X]|? ? X]; subst; try congruence. destruct (IH X (fadd acc x)) as (e & -> & He). exists e. auto. }
      destruct (G f0) as (e & -> & He). exists e. auto.
    - assert (G : cumulative f0 dist = Ok (map (fun _ => f0) dist)).
      { induction H as [|x l -> H IH]; auto. cbn [cumulative]. cbn [isnan isinf orb num_lt num_cmp f_cmp_Z]. change (fadd f0 (S754_zero false)) with f0. rewrite IH. reflexivity. }
      rewrite G. cbv zeta. replace (last (map (fun _ => f0) dist) f0) with f0; [reflexivity|]. clear. induction dist as [|x l IH]; auto. cbn [map last]. destruct (map (fun _ => f0) l); auto.
  Qed.

  (** rand.string and rand.bytes *)
  Lemma chars_ok (f : M S Z) (P : Z -> Prop) size s : (forall s, exists y s', f s = (Ok y, s') /\ P y) -> 0 < size ->
    exists t s', mapM (fun _ : nat => f) (seq 0 (Z.to_nat size)) s = (Ok t, s') /\ zlen t = size /\ Forall P t.
  Proof using.
    intros H L. destruct (mapM_all (fun _ : nat => f) P) with (l := seq 0 (Z.to_nat size)) (s := s) as (ys & s' & E1 & E2 & E3); [intros _; auto|].
    exists ys, s'. split; auto. rewrite seq_length in E3. unfold zlen. split; [lia|auto].
  Qed.
  Theorem C55_string : fair draw -> forall size s, 0 < size ->
    (forall population, population <> [] -> exists t s', r_string2 draw size population s = (Ok t, s') /\ zlen t = size /\ Forall (fun c => In c population) t) /\
    (forall low high, 1 <= low -> low < high -> high <= 55296 -> exists t s', r_string3 draw size low high s = (Ok t, s') /\ zlen t = size /\ Forall (fun c => low <= c < high /\ character c) t) /\
    (exists t s', r_string1 draw size s = (Ok t, s') /\ zlen t = size /\ Forall (fun c => 1 <= c <= 55296) t).
  Proof using.
    intros F size s H. unfold r_string1, r_string2, r_string3. destruct (Z.leb_spec size 0); [lia|]. split; [|split].
    - intros population NE. assert (P : 0 < zlen population) by (destruct population; [congruence|unfold zlen; cbn; lia]). destruct (Z.eqb_spec (zlen population) 0); [lia|].
      apply chars_ok; auto. intros s0. apply pick_ok; auto.
    - intros low high L1 L2 L3. destruct (Z.leb_spec high low); [lia|]. destruct (Z.ltb_spec low 1); [lia|]. destruct (Z.ltb_spec 55296 low); [lia|]. destruct (Z.ltb_spec high 1); [lia|]. destruct (Z.ltb_spec 55296 high); [lia|]. cbn [orb].
      apply chars_ok; auto. intros s0. destruct (randint_spec draw F low (high - 1) s0) as (k & s1 & E & L); [lia|]. exists k, s1. split; auto. split; [lia|]. left. lia.
    - apply chars_ok; auto. intros s0. apply randint_spec; auto. lia.
  Qed.
  Theorem C55_bytes : fair draw -> forall size s, 0 < size ->
    (forall population, population <> [] -> exists t s', r_bytes2 draw size population s = (Ok t, s') /\ zlen t = size /\ Forall (fun c => In c population) t) /\
    (forall low high, 0 <= low -> low < high -> high <= 256 -> exists t s', r_bytes3 draw size low high s = (Ok t, s') /\ zlen t = size /\ Forall (fun c => low <= c < high) t) /\
    (exists t s', r_bytes1 draw size s = (Ok t, s') /\ zlen t = size /\ Forall (fun c => 0 <= c < 256) t).
  Proof using.
    intros F size s H. unfold r_bytes1, r_bytes2, r_bytes3. destruct (Z.leb_spec size 0); [lia|]. split; [|split].
    - intros population NE. assert (P : 0 < zlen population) by (destruct population; [congruence|unfold zlen; cbn; lia]). destruct (Z.eqb_spec (zlen population) 0); [lia|].
      apply chars_ok; auto. intros s0. apply pick_ok; auto.
    - intros low high L1 L2 L3. destruct (Z.leb_spec high low); [lia|]. destruct (Z.ltb_spec low 0); [lia|]. destruct (Z.ltb_spec 255 low); [lia|]. destruct (Z.ltb_spec high 0); [lia|]. destruct (Z.ltb_spec 256 high); [lia|]. cbn [orb].
      apply chars_ok; auto. intros s0. destruct (randint_spec draw F low (high - 1) s0) as (k & s1 & E & L); [lia|]. exists k, s1. split; auto. lia.
    - apply chars_ok; auto. intros s0. destruct (randint_spec draw F 0 255 s0) as (k & s1 & E & L); [lia|]. exists k, s1. split; auto. lia.
  Qed.
  Theorem C55_string_errors : forall size low high s, 0 < size ->
    (high <= low -> r_string3 draw size low high s = (Raise (PFAErr 34081), s) /\ r_bytes3 draw size low high s = (Raise (PFAErr 34091), s)) /\
    (low < high -> (low < 1 \/ 55296 < high) -> r_string3 draw size low high s = (Raise (PFAErr 34082), s)) /\
    (low < high -> (low < 0 \/ 256 < high) -> r_bytes3 draw size low high s = (Raise (PFAErr 34092), s)).
  Proof using.
    intros size low high s H. unfold r_string3, r_bytes3. destruct (Z.leb_spec size 0); [lia|]. split; [|split].
    - intros L. destruct (Z.leb_spec high low); [auto|lia].
    - intros L1 L2. destruct (Z.leb_spec high low); [lia|]. destruct L2 as [L2|L2]; apply Z.ltb_lt in L2; rewrite L2; rewrite ?orb_true_r; reflexivity.
    - intros L1 L2. destruct (Z.leb_spec high low); [lia|]. destruct L2 as [L2|L2]; apply Z.ltb_lt in L2; rewrite L2; rewrite ?orb_true_r; reflexivity.
  Qed.

  (** rand.uuid4: the groups have 8, 4, 4, 4 and 16 digits; a UUID has 12 in the last one *)
  Lemma numeral_lower b : 1 < b -> forall ds acc, 0 <= acc -> Forall (fun d => 0 <= d < b) ds -> acc * b ^ Z.of_nat (length ds) <= numeral b acc ds.
  Proof using.
    intros B. induction ds as [|d ds IH]; intros acc A Fd; cbn [numeral length]; [rewrite Z.pow_0_r; lia|]. inversion Fd; subst.
    rewrite Nat2Z.inj_succ, Z.pow_succ_r by lia. etransitivity; [|apply IH; auto; nia]. assert (0 <= b ^ Z.of_nat (length ds)) by (apply Z.pow_nonneg; lia). nia.
  Qed.
  Lemma zero_padded_hex x w : 0 <= x < 16 ^ Z.of_nat w -> (1 <= w)%nat -> hex_digits w (zero_padded 16 x (Z.of_nat w)).
  Proof using.
    intros H W. unfold zero_padded, plain, sign. destruct (Z.ltb_spec x 0); [lia|]. cbn [app]. pose proof (body_denotes 16 x ltac:(lia)) as D. rewrite Z.abs_eq in D by lia.
    destruct D as (ds & F2 & Fd & E & NE & NL). assert (L : length (body 16 x) = length ds) by (clear - F2; induction F2; cbn; auto).
    assert (LB : (length (body 16 x) <= w)%nat).
    { destruct (Nat.le_gt_cases (length (body 16 x)) w) as [|G]; auto. exfalso. destruct (body 16 x) as [|c s] eqn:Eb; [congruence|]. destruct ds as [|d ds]; [discriminate|]. inversion F2 as [|? ? ? ? Dc _]; subst. inversion Fd as [|? ? D0 Fd']; subst.
      cbn [numeral] in H. rewrite Z.mul_0_l, Z.add_0_l in H.
      pose proof (numeral_lower 16 ltac:(lia) ds d ltac:(lia) Fd') as NLo. assert (d <> 0). { intros ->. assert (c = 48) by (unfold digit_value in Dc; lia). specialize (NL c s eq_refl H1). subst s. cbn in G. lia. }
      assert (16 ^ Z.of_nat w <= 16 ^ Z.of_nat (length ds)). { apply Z.pow_le_mono_r; [lia|]. cbn in L, G. lia. } nia. }
    unfold hex_digits, zlen, pad. split; [rewrite app_length, repeat_length; lia|]. apply Forall_app. split.
    - apply Forall_forall. intros c I. apply repeat_spec in I. subst. exists 0. unfold digit_value. lia.
    - clear - F2. induction F2; constructor; eauto.
  Qed.
  Theorem C55_uuid : fair draw -> forall s, exists t s', r_uuid draw s = (Ok t, s') /\ uuid4 16 t /\ length t = 40%nat.
  Proof using.
    intros F s. unfold r_uuid, getrandbits, bind.
    destruct (F (2 ^ 32) s) as (a & s1 & E1 & L1); [lia|]. rewrite E1. destruct (F (2 ^ 16) s1) as (b & s2 & E2 & L2); [lia|]. rewrite E2.
    destruct (F (2 ^ 12) s2) as (c & s3 & E3 & L3); [lia|]. rewrite E3. destruct (F (2 ^ 12) s3) as (d & s4 & E4 & L4); [lia|]. rewrite E4.
    destruct (F (2 ^ 64) s4) as (e & s5 & E5 & L5); [lia|]. rewrite E5. cbn [ret].
    pose proof (zero_padded_hex a 8 ltac:(cbn; lia) ltac:(lia)) as Ha. pose proof (zero_padded_hex b 4 ltac:(cbn; lia) ltac:(lia)) as Hb. pose proof (zero_padded_hex c 3 ltac:(cbn; lia) ltac:(lia)) as Hc.
    pose proof (zero_padded_hex d 3 ltac:(cbn; lia) ltac:(lia)) as Hd. pose proof (zero_padded_hex e 16 ltac:(cbn; lia) ltac:(lia)) as He.
    change (Z.of_nat 8) with 8 in Ha. change (Z.of_nat 4) with 4 in Hb. change (Z.of_nat 3) with 3 in Hc, Hd. change (Z.of_nat 16) with 16 in He.
    eexists _, s5. split; [reflexivity|]. split.
    - exists (zero_padded 16 a 8), (zero_padded 16 b 4), (zero_padded 16 c 3), 56, (zero_padded 16 d 3), (zero_padded 16 e 16). split; auto. split; auto. split; auto. split; [left; auto|]. split; auto.
    - rewrite !app_length. destruct Ha as [-> _], Hb as [-> _], Hc as [-> _], Hd as [-> _], He as [-> _]. reflexivity.
  Qed.
  Corollary C55_uuid_refuted : fair draw -> forall s t s', r_uuid draw s = (Ok t, s') -> ~ uuid4 12 t.
  Proof using.
    intros F s t s' H (a & b & c & v & d & e & [La _] & [Lb _] & [Lc _] & _ & [Ld _] & [Le _] & E). destruct (C55_uuid F s) as (t' & s1 & H1 & _ & L). assert (t = t') by congruence. subst t'.
    rewrite E in L. rewrite !app_length in L. cbn in L. lia.
  Qed.
End C55.

(** every value of the range can be drawn *)
Theorem C55_int_onto : forall low high x, low <= x < high -> r_int from_list low high [x - low] = (Ok x, []).
Proof.
  intros low high x H. unfold r_int, randint. destruct (Z.leb_spec high low); [lia|]. destruct (Z.ltb_spec (high - 1) low); [lia|]. unfold bind, from_list. rewrite Z.mod_small by lia. unfold ret. replace (low + (x - low)) with x by lia. auto.
Qed.
(** rand.string without a population may give a surrogate, which is not a character *)
Theorem C55_string_refuted : exists s t s', fair from_list /\ r_string1 from_list 1 s = (Ok t, s') /\ ~ Forall character t.
Proof.
  exists [55295], [55296], []. split; [apply from_list_fair|]. split; [reflexivity|]. intros H. inversion H as [|? ? C _]; subst. unfold character in C. lia.
Qed.
(** rand.double(low, high) may give [high] itself, and infinity if the difference overflows *)
Definition f1 : pf := S754_finite false 4503599627370496 (-52).
Definition f1_next : pf := S754_finite false 4503599627370497 (-52).
Definition fmax : pf := S754_finite false 9007199254740991 971.
Theorem C55_double_high_refuted : exists low high s s', valid low /\ valid high /\ num_lt (NF low) (NF high) = true /\ finite (fsub high low) /\ r_double from_list low high s = (Ok high, s').
Proof. exists f1, f1_next, [6755399441055744], []. vm_compute. auto 6. Qed.
Theorem C55_double_overflow_refuted : exists low high s s', valid low /\ valid high /\ finite low /\ finite high /\ num_lt (NF low) (NF high) = true /\ r_double from_list low high s = (Ok finf, s').
Proof. exists (fneg fmax), fmax, [4503599627370496], []. vm_compute. auto 7. Qed.
(** rand.histogram may give None: if the sum of the weights overflows, and if it is subnormal *)
Theorem C55_histogram_refuted :
  (exists dist s s', Forall valid dist /\ Forall finite dist /\ Forall (fun x => num_lt (NF f0) (NF x) = true) dist /\ r_histogram from_list dist s = (Ok None, s') /\
     r_histogram_rec from_list (fun x => x) dist s = (Raise (PyErr "TypeError"), s')) /\
  (exists x s s', valid x /\ finite x /\ num_lt (NF f0) (NF x) = true /\ r_histogram from_list [x] s = (Ok None, s')).
Proof.
  split; [exists [fmax; fmax], [4503599627370496], []|exists (S754_finite false 1 (-1074)), [6755399441055744], []]; vm_compute; repeat split; auto.
Qed.
Example C55_example : let s := [4;0;1;12;4503599627370496] in
  fair from_list /\ r_int from_list 10 20 s = (Ok 14, [0;1;12;4503599627370496]) /\ r_sample from_list (fun _ _ => true) 5 3 [7;8;9;9] s = (Ok [7;9;8], [12;4503599627370496]) /\
  r_sample from_list (fun _ _ => false) 5 3 [7;8;9;9] (0 :: s) = (Raise (PyErr "out of fuel"), []) /\
  r_sample from_list (fun _ _ => false) 9 3 [7;8;9;9] [2;2;0;1] = (Ok [9;7;8], []) /\
  r_histogram from_list [f1; f0; f1_next] [4503599627370496] = (Ok (Some 2), []) /\ r_histogram from_list [f1; f0; f1_next] [4503599627370495] = (Ok (Some 0), []) /\
  num_lt (NF smallest_normal) (NF (fadd f1 f1_next)) = true.
Proof. cbn zeta. split; [apply from_list_fair|]. vm_compute. auto 10. Qed.
Print Assumptions C55_int.
Print Assumptions C55_int_empty.
Print Assumptions C55_choice.
Print Assumptions C55_choices.
Print Assumptions C55_sample.
Print Assumptions C55_sample_negative_refuted.
Print Assumptions C55_population_errors.
Print Assumptions C55_double_partial.
Print Assumptions C55_histogram.
Print Assumptions C55_histogram_total_partial.
Print Assumptions C55_histogram_errors.
Print Assumptions C55_string.
Print Assumptions C55_bytes.
Print Assumptions C55_string_errors.
Print Assumptions C55_uuid.
Print Assumptions C55_uuid_refuted.
Print Assumptions C55_int_onto.
Print Assumptions C55_string_refuted.
Print Assumptions C55_double_high_refuted.
Print Assumptions C55_double_overflow_refuted.
Print Assumptions C55_histogram_refuted.
