(** Properties C01-C05: PRBS generator and iterator. *)
From Verif Require Import Py B_list M_aux M_prbs S_prbs P_prbs_gen.

(** C01: the register returns to a non-zero seed exactly at the multiples of 2^n - 1. *)
Theorem C01_prbs_least_period : forall (t : prbs_type) (seed : list Z) (k : nat),
  length seed = prbs_value t -> bits seed -> seed <> repeat 0 (prbs_value t) ->
  exists out sd, prbs_generator (get_polynomial t) seed (Z.of_nat k) = Ok (out, sd) /\
    (sd = seed <-> Nat.divide (2 ^ prbs_value t - 1) k).
Proof. exact period_exact. Qed.
Print Assumptions C01_prbs_least_period.

(** C01: from any non-zero seed every non-zero register content occurs exactly once per period. *)
Theorem C01_prbs_visits_every_state : forall (t : prbs_type) (seed target : list Z),
  length seed = prbs_value t -> bits seed -> seed <> repeat 0 (prbs_value t) ->
  length target = prbs_value t -> bits target -> target <> repeat 0 (prbs_value t) ->
  exists! k, (k < 2 ^ prbs_value t - 1)%nat /\
    exists out, prbs_generator (get_polynomial t) seed (Z.of_nat k) = Ok (out, target).
Proof. exact visits_unique. Qed.
Print Assumptions C01_prbs_visits_every_state.

(** C01: the all-zero seed is the one exception: it only produces zeros. *)
Theorem C01_prbs_zero_seed : forall (t : prbs_type) (L : nat),
  prbs_generator (get_polynomial t) (repeat 0 (prbs_value t)) (Z.of_nat L) =
  Ok (repeat 0 L, repeat 0 (prbs_value t)).
Proof. exact zero_seed. Qed.
Print Assumptions C01_prbs_zero_seed.

Example C01_nonvacuous :
  length (repeat 1 7) = prbs_value PRBS7 /\ bits (repeat 1 7) /\ repeat 1 7 <> repeat 0 (prbs_value PRBS7) /\
  prbs_generator (get_polynomial PRBS7) (repeat 1 7) 10 =
    Ok ([0; 0; 0; 0; 0; 0; 1; 0; 0; 0], [0; 0; 0; 1; 0; 0; 0]).
Proof.
  split; [reflexivity|]. split; [repeat constructor; right; reflexivity|]. split; [discriminate|].
  vm_compute. reflexivity.
Qed.

(** C02: exact length, the standard polynomial's recurrence at every position, and the returned seed is
    the register after the last bit - at every length, also beyond one period. *)
Theorem C02_prbs_gen_recurrence : forall (t : prbs_type) (seed : list Z) (L : nat),
  length seed = prbs_value t -> bits seed ->
  exists out sd, prbs_generator (get_polynomial t) seed (Z.of_nat L) = Ok (out, sd) /\
    length out = L /\ tap_recurrence (standard_taps t) seed out /\ register_after seed out sd.
Proof. exact prbs_spec. Qed.
Print Assumptions C02_prbs_gen_recurrence.

(** C02: for a user supplied polynomial (any integers, not only maximal-length ones) the same holds up
    to one period 2^n - 1 ... *)
Theorem C02_prbs_gen_any_polynomial : forall (poly seed : list Z) (L : nat),
  length poly = length seed -> (0 < length seed)%nat -> Z.of_nat L <= 2 ^ Z.of_nat (length poly) - 1 ->
  exists out sd, prbs_generator poly seed (Z.of_nat L) = Ok (out, sd) /\
    length out = L /\ recurrence poly seed out /\ register_after seed out sd.
Proof. exact prbs_spec_short. Qed.
Print Assumptions C02_prbs_gen_any_polynomial.

(** C02: ... but not beyond it: the tiling shortcut is wrong for a polynomial that is not maximal
    length (x^2 + 1, seed [1;0], six bits). *)
Theorem C02_tiling_any_polynomial_refuted :
  exists poly seed L out sd,
    length poly = length seed /\ bits poly /\ bits seed /\
    prbs_generator poly seed (Z.of_nat L) = Ok (out, sd) /\ length out = L /\ ~ recurrence poly seed out.
Proof.
  exists [0; 1], [1; 0], 6%nat, [0; 1; 0; 0; 1; 0], [0; 1].
  split; [reflexivity|]. split; [repeat constructor; (left + right); reflexivity|].
  split; [repeat constructor; (left + right); reflexivity|].
  split; [vm_compute; reflexivity|]. split; [reflexivity|].
  intros H. specialize (H 3%nat ltac:(simpl; lia)). vm_compute in H. discriminate.
Qed.
Print Assumptions C02_tiling_any_polynomial_refuted.

Example C02_nonvacuous : (* a length beyond the period of PRBS7 *)
  exists out sd, prbs_generator (get_polynomial PRBS7) [1; 0; 1; 1; 0; 0; 1] 200 = Ok (out, sd) /\
    firstn 20 out = [1; 0; 1; 0; 1; 1; 0; 1; 1; 1; 1; 0; 1; 1; 0; 0; 0; 1; 1; 0] /\ sd = rev (skipn 193 out).
Proof. do 2 eexists. split; [vm_compute; reflexivity|]. vm_compute. split; reflexivity. Qed.

(** C03: resuming from the returned seed. *)
Theorem C03_prbs_resume : forall (t : prbs_type) (seed : list Z) (a b : nat),
  length seed = prbs_value t -> bits seed ->
  exists o1 s1 o2 s2, prbs_generator (get_polynomial t) seed (Z.of_nat a) = Ok (o1, s1) /\
    prbs_generator (get_polynomial t) s1 (Z.of_nat b) = Ok (o2, s2) /\
    prbs_generator (get_polynomial t) seed (Z.of_nat (a + b)) = Ok (o1 ++ o2, s2).
Proof. exact resume. Qed.
Print Assumptions C03_prbs_resume.
Example C03_nonvacuous :
  prbs_generator (get_polynomial PRBS9) (repeat 1 9) 3 = Ok ([0; 0; 0], [0; 0; 0; 1; 1; 1; 1; 1; 1]) /\
  prbs_generator (get_polynomial PRBS9) [0; 0; 0; 1; 1; 1; 1; 1; 1] 4 = Ok ([0; 0; 1; 1], [1; 1; 0; 0; 0; 0; 0; 1; 1]) /\
  prbs_generator (get_polynomial PRBS9) (repeat 1 9) 7 = Ok ([0; 0; 0; 0; 0; 1; 1], [1; 1; 0; 0; 0; 0; 0; 1; 1]).
Proof. vm_compute. repeat split; reflexivity. Qed.

(** C04: the iterator object. *)
Theorem C04_prbs_iterator : forall (t : prbs_type) (seed : list Z) (k : nat),
  length seed = prbs_value t -> bits seed ->
  exists out st sd,
    it_run k (it_init (get_polynomial t) seed) = Ok (out, st) /\
    prbs_generator (get_polynomial t) seed (Z.of_nat k) = Ok (out, sd) /\
    it_get_seed st = sd /\
    (k = 0%nat -> it_get_prev_seed st = None) /\
    (forall k', k = S k' -> exists out' sd',
        prbs_generator (get_polynomial t) seed (Z.of_nat k') = Ok (out', sd') /\ it_get_prev_seed st = Some sd').
Proof. exact iterator_agrees. Qed.
Print Assumptions C04_prbs_iterator.
Example C04_nonvacuous :
  it_run 3 (it_init (get_polynomial PRBS7) [1; 0; 1; 1; 0; 0; 1]) =
    Ok ([1; 0; 1], mk_it (get_polynomial PRBS7) [1; 0; 1; 1; 0; 1; 1] (Some [0; 1; 1; 0; 1; 1; 0])).
Proof. vm_compute. reflexivity. Qed.

(** C04: with a seed of another length than the polynomial's, asking for one bit or more raises, from both; the iterator raises at the first call. *)
Theorem C04_mismatch : forall (poly seed : list Z) (k : nat), poly <> [] -> length seed <> length poly -> (0 < k)%nat ->
  it_run k (it_init poly seed) = Raise ValueError /\ prbs_generator poly seed (Z.of_nat k) = Raise ValueError.
Proof.
  intros poly seed k Hp Hl Hk. split.
  - destruct k as [|k]; [lia|]. cbn [it_run it_init it_next it_poly it_seed]. unfold it_next. cbn [it_poly it_seed it_init]. destruct (Nat.eqb_spec (length poly) (length seed)) as [E|E]; [congruence|reflexivity].
  - unfold prbs_generator. assert (1 <= Z.of_nat (length poly)) by (destruct poly; [congruence|cbn [length]; lia]). assert (2 ^ 1 <= 2 ^ Z.of_nat (length poly)) by (apply Z.pow_le_mono_r; lia).
    destruct (Z.eqb_spec (2 ^ Z.of_nat (length poly) - 1) 0); [lia|]. destruct (Z.ltb_spec 0 (Z.min (Z.of_nat k) (2 ^ Z.of_nat (length poly) - 1))); [|lia].
    destruct (Nat.eqb_spec (length poly) (length seed)) as [E|E]; [congruence|reflexivity].
Qed.
Print Assumptions C04_mismatch.
Example C04_mismatch_ex : it_run 2 (it_init (get_polynomial PRBS7) [1; 0; 1]) = Raise ValueError.
Proof. reflexivity. Qed.

(** C05: balance. *)
Theorem C05_prbs_balance : forall (t : prbs_type) (seed : list Z),
  length seed = prbs_value t -> bits seed -> seed <> repeat 0 (prbs_value t) ->
  exists out sd, prbs_generator (get_polynomial t) seed (Z.of_nat (2 ^ prbs_value t - 1)) = Ok (out, sd) /\
    ones_count out = (2 ^ (prbs_value t - 1))%nat.
Proof. exact balance. Qed.
Print Assumptions C05_prbs_balance.

(** C05: two-valued cyclic autocorrelation. *)
Theorem C05_prbs_autocorrelation : forall (t : prbs_type) (seed : list Z) (k : nat),
  length seed = prbs_value t -> bits seed -> seed <> repeat 0 (prbs_value t) ->
  (k < 2 ^ prbs_value t - 1)%nat ->
  exists out sd, prbs_generator (get_polynomial t) seed (Z.of_nat (2 ^ prbs_value t - 1)) = Ok (out, sd) /\
    autocorr out k = if (k =? 0)%nat then 2 ^ Z.of_nat (prbs_value t) - 1 else -1.
Proof. exact autocorr_two_valued. Qed.
Print Assumptions C05_prbs_autocorrelation.
Example C05_nonvacuous :
  exists out sd, prbs_generator (get_polynomial PRBS7) (repeat 1 7) 127 = Ok (out, sd) /\
    ones_count out = 64%nat /\ autocorr out 5 = -1 /\ autocorr out 0 = 127.
Proof. do 2 eexists. split; [vm_compute; reflexivity|]. vm_compute. repeat split; reflexivity. Qed.
