(** Proofs for C89: correlations of a PRBS on the line, and what the timing detector and the pattern lock make of them. *)
From Verif Require Import Py PyQ B_list B_qc M_aux M_prbs M_symbol M_lms M_lock S_prbs S_symbol S_lms S_lock S_mmprbs P_prbs P_prbs_gen P_symbol P_map P_coding P_lms P_lock.
Open Scope Z_scope.

(** Sums over one period. *)
Definition sums (n : nat) (F : Z -> Z) : Z := sumZ (map (fun i => F (Z.of_nat i)) (seq 0 n)).
Lemma sums_ext n F G : (forall i, 0 <= i < Z.of_nat n -> F i = G i) -> sums n F = sums n G.
Proof. intros H. apply sumZ_map_ext. intros i Hi. apply in_seq in Hi. apply H. lia. Qed.
Lemma sums_add n F G : sums n (fun i => F i + G i) = sums n F + sums n G. Proof. apply sumZ_map_add. Qed.
Lemma sums_mul n c F : sums n (fun i => c * F i) = c * sums n F. Proof. apply (sumZ_map_mul c (fun i => F (Z.of_nat i))). Qed.
Lemma sums_const n c : sums n (fun _ => c) = Z.of_nat n * c. Proof. unfold sums. now rewrite sumZ_map_const, seq_length. Qed.
Lemma sums_S n F : sums (S n) F = sums n F + F (Z.of_nat n).
Proof. unfold sums. rewrite seq_S, map_app, sumZ_app. cbn [map Nat.add]. unfold sumZ at 2. cbn [fold_right]. lia. Qed.
Lemma sums_first n F : sums (S n) F = F 0 + sums n (fun i => F (i + 1)).
Proof. induction n as [|n IH]; [cbn; lia|]. rewrite sums_S, IH, (sums_S n). replace (Z.of_nat (S n)) with (Z.of_nat n + 1) by lia. lia. Qed.
Lemma sums_app a b F : sums (a + b) F = sums a F + sums b (fun i => F (Z.of_nat a + i)).
Proof. induction b as [|b IH]; [rewrite Nat.add_0_r; cbn; lia|]. rewrite Nat.add_succ_r, !sums_S, IH. rewrite Nat2Z.inj_add. lia. Qed.
Section Periodic.
  Context (P : nat) (F : Z -> Z) (Per : forall i, F (i + Z.of_nat P) = F i).
  Lemma sums_next a : sums P (fun i => F (Z.succ a + i)) = sums P (fun i => F (a + i)).
  Proof.
    pose proof (sums_S P (fun i => F (a + i))) as A. pose proof (sums_first P (fun i => F (a + i))) as B. cbv beta in A, B. rewrite Z.add_0_r, Per in *.
    rewrite (sums_ext P (fun i => F (Z.succ a + i)) (fun i => F (a + (i + 1)))) by (intros; f_equal; lia). lia.
  Qed.
  Lemma sums_start a : sums P (fun i => F (a + i)) = sums P F.
  Proof.
    assert (H : forall a, sums P (fun i => F (a + i)) = sums P (fun i => F (0 + i))). { clear a. intros a. induction a as [|a IH|a IH] using Z.peano_ind; [auto|now rewrite sums_next|]. rewrite <- (sums_next (Z.pred a)), Z.succ_pred. exact IH. }
    rewrite H. apply sums_ext. intros. now rewrite Z.add_0_l.
  Qed.
  Lemma sums_many m a : sums (m * P) (fun i => F (a + i)) = Z.of_nat m * sums P F.
  Proof.
    revert a. induction m as [|m IH]; intros a; [reflexivity|]. cbn [Nat.mul]. rewrite sums_app, sums_start. rewrite (sums_ext (m * P) _ (fun i => F (a + Z.of_nat P + i))) by (intros; f_equal; lia). rewrite IH. lia.
  Qed.
End Periodic.
Lemma sums_even h F : (forall i, F (i + Z.of_nat (2 * h + 1)) = F i) -> sums (2 * h + 1) (fun i => F (2 * i)) = sums (2 * h + 1) F.
Proof.
  intros Per. set (P := (2 * h + 1)%nat) in *. assert (D : forall n, sums (n + n) F = sums n (fun i => F (2 * i)) + sums n (fun i => F (2 * i + 1))).
  { induction n as [|n IH]; [reflexivity|]. replace (S n + S n)%nat with (S (S (n + n))) by lia. rewrite !sums_S, IH. replace (Z.of_nat (S (n + n))) with (2 * Z.of_nat n + 1) by lia. replace (Z.of_nat (n + n)) with (2 * Z.of_nat n) by lia. lia. }
  specialize (D P). rewrite sums_app in D. rewrite (sums_ext P (fun i => F (Z.of_nat P + i)) F) in D by (intros; now rewrite Z.add_comm).
  assert (E : sums P (fun i => F (2 * i + 1)) = sums P (fun i => F (2 * i))).
  { transitivity (sums P (fun i => (fun j => F (2 * j)) (Z.of_nat h + 1 + i))).
    - apply sums_ext. intros i _. rewrite <- (Per (2 * i + 1)). f_equal. unfold P. lia.
    - apply (sums_start P (fun j => F (2 * j))). intros i. rewrite <- (Per (2 * i)). rewrite <- (Per (2 * i + Z.of_nat P)). f_equal. lia. }
  lia.
Qed.

(** One period of a PRBS. *)
Record full_period (t : prbs_type) (b : list Z) : Prop := {
  fp_len : length b = (2 ^ prbs_value t - 1)%nat ;
  fp_bits : Forall (fun v => v = 0 \/ v = 1) b ;
  fp_ones : sumZ b = 2 ^ (Z.of_nat (prbs_value t) - 1) ;
  fp_corr : forall k, (0 < k < length b)%nat -> autocorr b k = -1 }.
Lemma generated_period t seed b sd : length seed = prbs_value t -> Forall (fun v => v = 0 \/ v = 1) seed -> seed <> repeat 0 (prbs_value t) ->
  prbs_generator (get_polynomial t) seed (2 ^ Z.of_nat (prbs_value t) - 1) = Ok (b, sd) -> full_period t b.
Proof.
  intros H1 H2 H3 G. pose proof (value_gt1 t) as V. assert (EP : 2 ^ Z.of_nat (prbs_value t) - 1 = Z.of_nat (2 ^ prbs_value t - 1)) by (symmetry; apply maxlen_Z; auto). rewrite EP in G.
  pose proof (sum_period t seed H1 H2 H3) as SP. pose proof (gen_char t seed (2 ^ prbs_value t - 1) H1 H2) as GC. rewrite GC in G. injection G as <- _.
  constructor; [apply outbits_length|apply outbits_bits|rewrite SP|].
  - reflexivity.
  - rewrite outbits_length. intros k Hk. destruct (autocorr_two_valued t seed k H1 H2 H3 ltac:(lia)) as (o & s & E & A). rewrite GC in E. injection E as <- _. rewrite A. destruct (Nat.eqb_spec k 0); [lia|reflexivity].
Qed.
Section Line.
  Context (t : prbs_type) (b : list Z) (Hb : full_period t b).
  Let P := length b.
  Lemma P_val : Z.of_nat P + 1 = 2 ^ Z.of_nat (prbs_value t).
  Proof. pose proof (value_gt1 t) as V. unfold P. rewrite (fp_len t b Hb), maxlen_Z by auto. lia. Qed.
  Lemma P_pos : (126 < P)%nat.
  Proof. pose proof P_val as V. assert (128 <= 2 ^ Z.of_nat (prbs_value t)) by (destruct t; cbn [prbs_value]; vm_compute; discriminate). lia. Qed.
  Lemma P_odd : exists h, P = (2 * h + 1)%nat.
  Proof.
    assert (V := value_gt1 t). exists (2 ^ (prbs_value t - 1) - 1)%nat. unfold P. rewrite (fp_len t b Hb). replace (prbs_value t) with (S (prbs_value t - 1)) at 1 by lia. rewrite Nat.pow_succ_r'.
    assert (2 ^ (prbs_value t - 1) <> 0)%nat by (apply Nat.pow_nonzero; lia). lia.
  Qed.
  Definition chip (i : Z) : Z := nrz (bit_at b i).
  Lemma bit_cases i : bit_at b i = 0 \/ bit_at b i = 1.
  Proof. unfold bit_at. pose proof P_pos. pose proof (fp_bits t b Hb) as F. rewrite Forall_forall in F. apply F. apply nth_In. assert (0 <= i mod Z.of_nat (length b) < Z.of_nat (length b)) by (apply Z.mod_pos_bound; unfold P in *; lia). lia. Qed.
  Lemma bit_period i : bit_at b (i + Z.of_nat P) = bit_at b i.
  Proof. pose proof P_pos. unfold bit_at. fold P. rewrite <- (Z.mul_1_l (Z.of_nat P)) at 1. now rewrite Z.mod_add by lia. Qed.
  Lemma chip_period i : chip (i + Z.of_nat P) = chip i. Proof. unfold chip. now rewrite bit_period. Qed.
  Lemma chip_sq i : chip i * chip i = 1. Proof. unfold chip, nrz. destruct (bit_cases i) as [-> | ->]; reflexivity. Qed.
  Lemma chip_mod i : chip (i mod Z.of_nat P) = chip i. Proof. pose proof P_pos. unfold chip, bit_at. fold P. now rewrite Z.mod_mod by lia. Qed.
  Lemma chip_sum : sums P chip = -1.
  Proof.
    pose proof P_pos. pose proof P_val as V. assert (E : sums P (bit_at b) = sumZ b). { unfold sums. f_equal. apply (nth_ext_def 0); [now rewrite map_length, seq_length|]. intros i Hi. rewrite map_length, seq_length in Hi. rewrite nth_map_seq by auto. cbn [Nat.add]. unfold bit_at. fold P. rewrite Z.mod_small by lia. now rewrite Nat2Z.id. }
    unfold chip, nrz. rewrite (sums_ext P _ (fun i => 1 + (-2) * bit_at b i)) by (intros; lia). rewrite sums_add, sums_mul, sums_const, E, (fp_ones t b Hb).
    assert (N := value_gt1 t). replace (Z.of_nat (prbs_value t)) with (1 + (Z.of_nat (prbs_value t) - 1)) in V by lia. rewrite Z.pow_add_r in V by lia. lia.
  Qed.
  (** Correlation of the line bits with themselves, from any start, at any lag. *)
  Lemma chip_corr a j : sums P (fun i => chip (a + i) * chip (a + i + j)) = if j mod Z.of_nat P =? 0 then Z.of_nat P else -1.
  Proof.
    pose proof P_pos as PP. rewrite (sums_start P (fun i => chip i * chip (i + j))) by (intros i; rewrite chip_period; f_equal; rewrite <- (chip_period (i + j)); f_equal; lia).
    set (k := j mod Z.of_nat P). assert (Hk : 0 <= k < Z.of_nat P) by (apply Z.mod_pos_bound; lia). assert (Ej : forall i, chip (i + j) = chip (i + k)). { intros i. rewrite <- (chip_mod (i + j)), <- (chip_mod (i + k)). f_equal. unfold k. now rewrite Z.add_mod_idemp_r by lia. }
    rewrite (sums_ext P _ (fun i => chip i * chip (i + k))) by (intros; now rewrite Ej). destruct (Z.eqb_spec k 0) as [E|E].
    - rewrite E. rewrite (sums_ext P _ (fun _ => 1)) by (intros; rewrite Z.add_0_r; apply chip_sq). rewrite sums_const. lia.
    - rewrite <- (fp_corr t b Hb (Z.to_nat k)) by (fold P; lia). unfold autocorr, sums. fold P. apply sumZ_map_ext. intros i Hi. apply in_seq in Hi. unfold chip, bit_at. fold P. f_equal; f_equal; f_equal; [rewrite Z.mod_small by lia; lia|].
      rewrite <- (Nat2Z.id ((i + Z.to_nat k) mod P)). f_equal. rewrite Nat2Z.inj_mod. f_equal. lia.
  Qed.
  Lemma chip_corr_even u v : sums P (fun i => chip (2 * i + u) * chip (2 * i + v)) = if (v - u) mod Z.of_nat P =? 0 then Z.of_nat P else -1.
  Proof.
    destruct P_odd as (h & Eh). rewrite <- (chip_corr u (v - u)). rewrite Eh. rewrite <- (sums_even h (fun i => chip (u + i) * chip (u + i + (v - u)))).
    - apply sums_ext. intros i _. f_equal; f_equal; lia.
    - intros i. rewrite <- Eh. rewrite <- (chip_period (u + i)), <- (chip_period (u + i + (v - u))). f_equal; f_equal; lia.
  Qed.
  Lemma chip_sum_even u : sums P (fun i => chip (2 * i + u)) = -1.
  Proof.
    destruct P_odd as (h & Eh). rewrite Eh. rewrite (sums_even h (fun i => chip (i + u))) by (intros i; rewrite <- Eh, <- (chip_period (i + u)); f_equal; lia). rewrite <- Eh.
    rewrite (sums_ext P _ (fun i => chip (u + i))) by (intros; f_equal; lia). rewrite (sums_start P chip) by apply chip_period. apply chip_sum.
  Qed.
End Line.
Definition four_var (c : constellation) : Z := match c with NRZ => 4 | OOK => 1 | PAM3 => 0 | PAM4 => 20 end.
Section Levels.
  Context (t : prbs_type) (b : list Z) (Hb : full_period t b) (k : nat) (f : flags) (c : constellation) (Hk : carries k c).
  Let P := length b.
  Let x := line b k f c.
  Let ch := chip b.
  Lemma line_chips : exists ga al be, al * al + be * be = four_var c /\ (k = 1%nat -> be = 0) /\ (k = 2%nat -> al * be = 8 \/ al * be = -8) /\
    forall i, 2 * x i = ga + al * ch (Z.of_nat k * i) + be * ch (Z.of_nat k * i + 1).
  Proof.
    assert (N1 : forall f, exists e, (e = 1 \/ e = -1) /\ forall v, v = 0 \/ v = 1 -> symbol_value 1 f [v] 0 = 0 /\ e * nrz v = 1 \/ symbol_value 1 f [v] 0 = 1 /\ e * nrz v = -1).
    { intros [bo im il pn]. exists (if pn then -1 else 1). split; [destruct pn; auto|]. intros v [-> | ->]; destruct bo, im, il, pn; vm_compute; auto. }
    assert (N2 : forall f, exists e d, (e = 1 \/ e = -1 \/ e = 2 \/ e = -2) /\ (d = 1 \/ d = -1 \/ d = 2 \/ d = -2) /\ e * e + d * d = 5 /\ forall v w, v = 0 \/ v = 1 -> w = 0 \/ w = 1 ->
      nth (Z.to_nat (symbol_value 2 f [v; w] 0)) (get_levels PAM4) 0 = e * nrz v + d * nrz w).
    { intros [bo im il pn]. exists ((if bo then -2 else -1) * (if pn then -1 else 1) * (if bo then if im then -1 else 1 else if il then -1 else 1)), ((if bo then -1 else -2) * (if pn then -1 else 1) * (if bo then if il then -1 else 1 else if im then -1 else 1)).
      split; [destruct bo, im, il, pn; vm_compute; auto|]. split; [destruct bo, im, il, pn; vm_compute; auto|]. split; [destruct bo, im, il, pn; reflexivity|].
      intros v w [-> | ->] [-> | ->]; destruct bo, im, il, pn; reflexivity. }
    destruct Hk as [[K C]|[K C]].
    - destruct (N1 f) as (e & He & E1). assert (X : forall i, exists s, x i = nth (Z.to_nat s) (get_levels c) 0 /\ (s = 0 /\ e * ch i = 1 \/ s = 1 /\ e * ch i = -1)).
      { intros i. exists (symbol_value 1 f [bit_at b i] 0). unfold x, line, bits_of. rewrite K. cbn [seq map]. replace (Z.of_nat 1 * i + Z.of_nat 0) with i by lia. split; auto. apply E1. apply (bit_cases t); auto. }
      destruct C as [-> | ->].
      + exists 0, (-2 * e), 0. split; [destruct He as [-> | ->]; reflexivity|]. split; [auto|]. split; [intros; lia|]. intros i. rewrite K. replace (Z.of_nat 1 * i) with i by lia. destruct (X i) as (s & -> & [[-> E]|[-> E]]); cbn [get_levels Z.to_nat nth]; [|change (Pos.to_nat 1) with 1%nat; cbn [nth]]; lia.
      + exists 1, (- e), 0. split; [destruct He as [-> | ->]; reflexivity|]. split; [auto|]. split; [intros; lia|]. intros i. rewrite K. replace (Z.of_nat 1 * i) with i by lia. destruct (X i) as (s & -> & [[-> E]|[-> E]]); cbn [get_levels Z.to_nat nth]; [|change (Pos.to_nat 1) with 1%nat; cbn [nth]]; lia.
    - subst c. destruct (N2 f) as (e & d & He & Hd & S & E). exists 0, (2 * e), (2 * d). split; [change (four_var PAM4) with 20; lia|]. split; [intros; lia|]. split.
      + intros _. destruct He as [-> |[-> |[-> | ->]]], Hd as [-> |[-> |[-> | ->]]]; try (exfalso; vm_compute in S; discriminate); vm_compute; auto.
      + intros i. unfold x, line, bits_of. rewrite K. cbn [seq map]. change (Z.of_nat 0) with 0. change (Z.of_nat 1) with 1. rewrite Z.add_0_r. rewrite E by (apply (bit_cases t); auto). unfold ch, chip. lia.
  Qed.
  Lemma line_period i : x (i + Z.of_nat P) = x i.
  Proof.
    pose proof (P_pos t b Hb) as PP. unfold x, line. do 3 f_equal. unfold bits_of. apply map_ext. intros l. unfold bit_at. fold P. f_equal. f_equal. replace (Z.of_nat k * (i + Z.of_nat P) + Z.of_nat l) with (Z.of_nat k * i + Z.of_nat l + Z.of_nat k * Z.of_nat P) by lia. fold P in PP. now rewrite Z.mod_add by lia.
  Qed.
  Definition corr (j : Z) : Z := sums P (fun i => x i * x (i + j)).
  Lemma corr_start a u v : sums P (fun i => x (a + i + u) * x (a + i + v)) = corr (v - u).
  Proof.
    unfold corr. rewrite <- (sums_start P (fun i => x i * x (i + (v - u)))) with (a := a + u).
    - apply sums_ext. intros. f_equal; f_equal; lia.
    - intros i. rewrite line_period. f_equal. rewrite <- (line_period (i + (v - u))). f_equal. lia.
  Qed.
  Definition cc (j : Z) : Z := if j mod Z.of_nat P =? 0 then Z.of_nat P else -1.
  Lemma chips_k u v : sums P (fun i => ch (Z.of_nat k * i + u) * ch (Z.of_nat k * i + v)) = cc (v - u) /\ sums P (fun i => ch (Z.of_nat k * i + u)) = -1.
  Proof.
    destruct Hk as [[-> _]|[-> _]].
    - split.
      + etransitivity; [|exact (chip_corr t b Hb u (v - u))]. apply sums_ext. intros. unfold ch. f_equal; f_equal; lia.
      + rewrite (sums_ext P _ (fun i => ch (u + i))) by (intros; f_equal; lia). unfold ch, P. rewrite (sums_start (length b) (chip b)) by apply (chip_period t b Hb). now apply (chip_sum t).
    - split; [apply (chip_corr_even t b Hb u v)|apply (chip_sum_even t b Hb u)].
  Qed.
  Lemma corr_value : exists ga al be, al * al + be * be = four_var c /\ (k = 1%nat -> be = 0) /\ (k = 2%nat -> al * be = 8 \/ al * be = -8) /\
    forall j, 4 * corr j = ga + (al * al + be * be) * cc (Z.of_nat k * j) + al * be * (cc (Z.of_nat k * j + 1) + cc (Z.of_nat k * j - 1)).
  Proof.
    destruct line_chips as (ga & al & be & E & K1 & K2 & X). exists (ga * ga * Z.of_nat P - 2 * ga * (al + be)), al, be. split; [auto|]. split; [auto|]. split; [auto|]. intros j. set (kk := Z.of_nat k) in *.
    assert (S : 4 * corr j = sums P (fun i => (ga + al * ch (kk * i) + be * ch (kk * i + 1)) * (ga + al * ch (kk * i + kk * j) + be * ch (kk * i + (kk * j + 1))))).
    { unfold corr. rewrite <- sums_mul. apply sums_ext. intros i _. replace (4 * (x i * x (i + j))) with ((2 * x i) * (2 * x (i + j))) by ring. rewrite !X. f_equal. f_equal; [f_equal|]; f_equal; f_equal; lia. }
    rewrite S. rewrite (sums_ext P _ (fun i => ga * ga + ga * al * ch (kk * i + 0) + ga * be * ch (kk * i + 1) + ga * al * ch (kk * i + kk * j) + ga * be * ch (kk * i + (kk * j + 1)) +
       al * al * (ch (kk * i + 0) * ch (kk * i + kk * j)) + be * be * (ch (kk * i + 1) * ch (kk * i + (kk * j + 1))) + al * be * (ch (kk * i + 0) * ch (kk * i + (kk * j + 1))) + al * be * (ch (kk * i + 1) * ch (kk * i + kk * j)))).
    2:{ intros i _. rewrite Z.add_0_r. ring. }
    rewrite !sums_add, !sums_mul, sums_const. unfold kk. rewrite !(proj1 (chips_k _ _)), !(proj2 (chips_k _ 0)). fold kk. replace (kk * j - 0) with (kk * j) by lia. replace (kk * j + 1 - 1) with (kk * j) by lia. replace (kk * j + 1 - 0) with (kk * j + 1) by lia. ring.
  Qed.
  Lemma cc_0 : cc 0 = Z.of_nat P. Proof. unfold cc. rewrite Z.mod_0_l by (pose proof (P_pos t b Hb); unfold P; lia). reflexivity. Qed.
  Lemma cc_small j : j <> 0 -> Z.abs j < Z.of_nat P -> cc j = -1.
  Proof.
    intros N H. unfold cc. destruct (Z.eqb_spec (j mod Z.of_nat P) 0) as [E|]; auto. exfalso. apply Z.mod_divide in E as [q E]; [|lia]. subst j. rewrite Z.abs_mul, (Z.abs_eq (Z.of_nat P)) in H by lia. assert (q <> 0) by (intros ->; lia). nia.
  Qed.
  Lemma corr_good j : j <> 0 -> Z.of_nat k * Z.abs j + 1 < Z.of_nat P -> 4 * (corr 0 - corr j) = four_var c * (Z.of_nat P + 1).
  Proof.
    intros N H. destruct corr_value as (ga & al & be & E & K1 & K2 & V). rewrite Z.mul_sub_distr_l, !V. rewrite Z.mul_0_r, cc_0. pose proof (P_pos t b Hb) as PP. fold P in PP.
    assert (KP : Z.of_nat k = 1 \/ Z.of_nat k = 2) by (destruct Hk as [[Ek _]|[Ek _]]; rewrite Ek; auto). rewrite (cc_small (0 + 1)), (cc_small (0 - 1)), (cc_small (Z.of_nat k * j)) by nia. rewrite <- E.
    destruct Hk as [[Ek _]|[Ek _]].
    - rewrite (K1 Ek). ring.
    - rewrite (cc_small (Z.of_nat k * j + 1)), (cc_small (Z.of_nat k * j - 1)) by (rewrite Ek in *; lia). ring.
  Qed.
  Lemma corr_sym j : corr (- j) = corr j.
  Proof.
    pose proof (corr_start 0 j 0) as A. pose proof (corr_start 0 0 j) as B. replace (0 - j) with (- j) in A by lia. replace (j - 0) with j in B by lia. rewrite <- A, <- B. apply sums_ext. intros. apply Z.mul_comm.
  Qed.
  Lemma line_top i : Z.abs (x i) <= top c.
  Proof.
    unfold x, line. set (s := Z.to_nat _). destruct (Nat.ltb_spec s (length (get_levels c))) as [L|L]; [|rewrite nth_overflow by auto; destruct c; cbn; lia].
    assert (F : Forall (fun v => Z.abs v <= top c) (get_levels c)) by (destruct c; cbn; repeat constructor; lia). rewrite Forall_forall in F. apply F. now apply nth_In.
  Qed.
  (** The two products of the timing detector for one channel tap, [l] symbols before the main cursor. *)
  Definition tap_diff (a : Z) (M : nat) (l : Z) : Z := sums M (fun n => x (a + n) * x (a + (n + 1) + l) - x (a + (n + 1)) * x (a + n + l)).
  Lemma tap_diff_full a m l : tap_diff a (m * P) l = Z.of_nat m * (corr (l + 1) - corr (l - 1)).
  Proof.
    unfold tap_diff. set (F := fun i => x i * x (i + 1 + l) - x (i + 1) * x (i + l)). assert (Per : forall i, F (i + Z.of_nat P) = F i).
    { intros i. unfold F. rewrite <- (line_period (i + 1 + l)), <- (line_period (i + 1)), <- (line_period (i + l)), line_period. f_equal; f_equal; f_equal; lia. }
    rewrite (sums_ext _ _ (fun n => F (a + n))) by (intros; unfold F; f_equal; f_equal; f_equal; lia). rewrite (sums_many P F Per). f_equal.
    transitivity (sums P (fun i => x (0 + i + 0) * x (0 + i + (1 + l)) + -1 * (x (0 + i + 1) * x (0 + i + l)))).
    - apply sums_ext. intros i _. unfold F. replace (0 + i + 0) with i by lia. replace (0 + i) with i by lia. replace (i + (1 + l)) with (i + 1 + l) by lia. lia.
    - rewrite sums_add, sums_mul, !corr_start. replace (1 + l - 0) with (l + 1) by lia. lia.
  Qed.
  Lemma tap_diff_split a m q l : Z.abs (tap_diff a (m * P + q) l - Z.of_nat m * (corr (l + 1) - corr (l - 1))) <= 2 * Z.of_nat q * (top c * top c).
  Proof.
    rewrite <- (tap_diff_full a m l). unfold tap_diff. rewrite sums_app. set (u := sums (m * P) _). set (G := fun i => _). replace (u + sums q G - u) with (sums q G) by lia. clear u.
    assert (B : forall i, Z.abs (G i) <= 2 * (top c * top c)). { intros i. unfold G. set (p1 := x _). set (p2 := x _). set (p3 := x _). set (p4 := x _). assert (B1 : Z.abs (p1 * p2) <= top c * top c) by (rewrite Z.abs_mul; apply Z.mul_le_mono_nonneg; try apply Z.abs_nonneg; apply line_top). assert (B2 : Z.abs (p3 * p4) <= top c * top c) by (rewrite Z.abs_mul; apply Z.mul_le_mono_nonneg; try apply Z.abs_nonneg; apply line_top). lia. }
    clearbody G. induction q as [|q IH]; [cbn; lia|]. rewrite sums_S. specialize (B (Z.of_nat q)). nia.
  Qed.
  (** Over whole periods only the taps next to the main cursor count. *)
  Lemma tap_diff_cursor m l : Z.of_nat k * (Z.abs l + 1) + 1 < Z.of_nat P ->
    4 * (Z.of_nat m * (corr (l + 1) - corr (l - 1))) = (if l =? -1 then 1 else if l =? 1 then -1 else 0) * (Z.of_nat m * (four_var c * (Z.of_nat P + 1))).
  Proof.
    intros H. pose proof (P_pos t b Hb) as PP. fold P in PP. assert (KP : Z.of_nat k = 1 \/ Z.of_nat k = 2) by (destruct Hk as [[Ek _]|[Ek _]]; rewrite Ek; auto).
    destruct (Z.eqb_spec l (-1)) as [-> |N1]; [|destruct (Z.eqb_spec l 1) as [-> |N2]].
    - change (-1 + 1) with 0. change (-1 - 1) with (-2). rewrite <- (corr_good (-2)) by (try lia; change (Z.abs (-2)) with 2; lia). ring.
    - change (1 - 1) with 0. change (1 + 1) with 2. rewrite <- (corr_good 2) by (try lia; change (Z.abs 2) with 2; lia). ring.
    - rewrite Z.mul_0_l. assert (E1 := corr_good (l + 1) ltac:(lia) ltac:(nia)). assert (E2 := corr_good (l - 1) ltac:(lia) ltac:(nia)). assert (corr (l + 1) = corr (l - 1)) by lia. nia.
  Qed.
End Levels.

(** Exact rational sums over the taps. *)
Open Scope Qc_scope.
Lemma sumQ_swap {A B} (f : A -> B -> Qc) I J : sumQ (map (fun i => sumQ (map (fun j => f i j) J)) I) = sumQ (map (fun j => sumQ (map (fun i => f i j) I)) J).
Proof.
  induction I as [|i I IH]; cbn [map]; rewrite ?sumQ_cons; [induction J as [|j J IJ]; cbn [map]; rewrite ?sumQ_cons; auto; rewrite <- IJ; reflexivity|].
  rewrite IH, <- sumQ_map_add. apply sumQ_map_ext. intros j _. now rewrite sumQ_cons.
Qed.
Lemma sumQ_ofZ {A} (f : A -> Z) l : sumQ (map (fun i => ofZ (f i)) l) = ofZ (sumZ (map f l)).
Proof. induction l as [|a l IH]; [reflexivity|]. cbn [map]. rewrite sumQ_cons, IH. change (sumZ (f a :: map f l)) with (f a + sumZ (map f l))%Z. now rewrite ofZ_add. Qed.
Lemma sums_ofZ n F : sumQ (map (fun i => ofZ (F i)) (instants n)) = ofZ (sums n F).
Proof. unfold instants, sums. rewrite map_map, (sumQ_ofZ (fun i => F (Z.of_nat i))). reflexivity. Qed.
Lemma sumQ_abs {A} (f g : A -> Qc) l : (forall a, In a l -> Qcabs (f a) <= g a) -> Qcabs (sumQ (map f l)) <= sumQ (map g l).
Proof.
  induction l as [|a l IH]; intros H; cbn [map]; rewrite ?sumQ_cons; [unfold sumQ; cbn [fold_right]; rewrite Qcabs_pos; apply Qcle_refl|].
  eapply Qcle_trans; [apply Qcabs_triangle|]. apply Qcplus_le_compat; [apply H; now left|]. apply IH. intros; apply H; now right.
Qed.
Lemma signal_map (F : Z -> Qc) N n : (0 <= n < Z.of_nat N)%Z -> signal (map F (instants N)) n = F n.
Proof. intros H. rewrite signal_nth by (unfold instants; rewrite !map_length, seq_length; lia). unfold instants. rewrite map_map, nth_map_seq by lia. f_equal. lia. Qed.
Lemma in_instants n i : In i (instants n) <-> (0 <= i < Z.of_nat n)%Z.
Proof. unfold instants. rewrite in_map_iff. split; [intros (j & <- & H); apply in_seq in H; lia|]. intros H. exists (Z.to_nat i). split; [lia|]. apply in_seq. lia. Qed.
Lemma received_length h main x a N : length (received h main x a N) = N. Proof. unfold received, instants. now rewrite !map_length, seq_length. Qed.
Lemma reference_length g x a N : length (reference g x a N) = N. Proof. unfold reference, instants. now rewrite !map_length, seq_length. Qed.
(** The difference of the two estimates is a sum over the taps. *)
Lemma mm_difference h main g x a M : (0 < M)%nat ->
  postcursor (received h main x a (S M)) (reference g x a (S M)) - precursor (received h main x a (S M)) (reference g x a (S M)) =
  g * sumQ (map (fun j => signal h j * ofZ (sums M (fun n => x (a + n) * x (a + (n + 1) + (main - j)) - x (a + (n + 1)) * x (a + n + (main - j)))%Z)) (instants (length h))) / ofZ (Z.of_nat M).
Proof.
  intros HM. unfold postcursor, precursor. rewrite reference_length. replace (S M - 1)%nat with M by lia. replace (Z.of_nat (S M) - 1)%Z with (Z.of_nat M) by lia.
  set (A := sumQ (map _ (instants M))). set (B := sumQ (map _ (instants M))). replace (A / ofZ (Z.of_nat M) - B / ofZ (Z.of_nat M)) with ((A - B) / ofZ (Z.of_nat M)) by (unfold Qcdiv; ring).
  unfold Qcdiv. f_equal. assert (EA : A = g * sumQ (map (fun j => signal h j * ofZ (sums M (fun n => x (a + n) * x (a + (n + 1) + (main - j)))%Z)) (instants (length h)))).
  { unfold A. transitivity (sumQ (map (fun n => sumQ (map (fun j => g * (signal h j * ofZ (x (a + n) * x (a + (n + 1) + (main - j)))%Z)) (instants (length h)))) (instants M))).
    - apply sumQ_map_ext. intros n Hn. apply in_instants in Hn. unfold reference, received. rewrite !signal_map by lia. rewrite <- sumQ_map_scale. apply sumQ_map_ext. intros j _. rewrite ofZ_mul. replace (a + (n + 1) + main - j)%Z with (a + (n + 1) + (main - j))%Z by lia. ring.
    - rewrite sumQ_swap. rewrite <- sumQ_map_scale. apply sumQ_map_ext. intros j _. rewrite <- sums_ofZ. rewrite <- !sumQ_map_scale. reflexivity. }
  assert (EB : B = g * sumQ (map (fun j => signal h j * ofZ (sums M (fun n => x (a + (n + 1)) * x (a + n + (main - j)))%Z)) (instants (length h)))).
  { unfold B. transitivity (sumQ (map (fun n => sumQ (map (fun j => g * (signal h j * ofZ (x (a + (n + 1)) * x (a + n + (main - j)))%Z)) (instants (length h)))) (instants M))).
    - apply sumQ_map_ext. intros n Hn. apply in_instants in Hn. unfold reference, received. rewrite !signal_map by lia. rewrite <- sumQ_map_scale. apply sumQ_map_ext. intros j _. rewrite ofZ_mul. replace (a + n + main - j)%Z with (a + n + (main - j))%Z by lia. ring.
    - rewrite sumQ_swap. rewrite <- sumQ_map_scale. apply sumQ_map_ext. intros j _. rewrite <- sums_ofZ. rewrite <- !sumQ_map_scale. reflexivity. }
  rewrite EA, EB. transitivity (g * (sumQ (map (fun j => signal h j * ofZ (sums M (fun n => x (a + n) * x (a + (n + 1) + (main - j)))%Z)) (instants (length h))) + - (1) * sumQ (map (fun j => signal h j * ofZ (sums M (fun n => x (a + (n + 1)) * x (a + n + (main - j)))%Z)) (instants (length h))))); [ring|].
  f_equal. rewrite <- sumQ_map_scale, <- sumQ_map_add. apply sumQ_map_ext. intros j _. transitivity (signal h j * (ofZ (sums M (fun n => x (a + n) * x (a + (n + 1) + (main - j)))%Z) + - ofZ (sums M (fun n => x (a + (n + 1)) * x (a + n + (main - j)))%Z))); [ring|]. f_equal. rewrite <- ofZ_opp, <- ofZ_add. f_equal.
  transitivity (sums M (fun n => x (a + n) * x (a + (n + 1) + (main - j)) + -1 * (x (a + (n + 1)) * x (a + n + (main - j)))))%Z; [rewrite sums_add, sums_mul; lia|]. apply sums_ext. intros. lia.
Qed.
Lemma pick_tap h (p : Z) n : sumQ (map (fun j => signal h j * ofZ (if (j =? p)%Z then 1 else 0)) (instants n)) = if ((0 <=? p) && (p <? Z.of_nat n))%Z then signal h p else 0.
Proof.
  unfold instants. induction n as [|n IH]; [destruct (Z.leb_spec 0 p), (Z.ltb_spec p (Z.of_nat 0)); cbn [andb]; try lia; reflexivity|].
  rewrite seq_S, !map_app, sumQ_app, IH. cbn [map Nat.add]. rewrite sumQ_cons. change (sumQ []) with (0 : Qc). destruct (Z.leb_spec 0 p), (Z.ltb_spec p (Z.of_nat n)), (Z.ltb_spec p (Z.of_nat (S n))), (Z.eqb_spec (Z.of_nat n) p); cbn [andb]; try lia; change (ofZ 1) with (1 : Qc); change (ofZ 0) with (0 : Qc); try subst p; ring.
Qed.
Lemma pick_all h p : sumQ (map (fun j => signal h j * ofZ (if (j =? p)%Z then 1 else 0)) (instants (length h))) = signal h p.
Proof. rewrite pick_tap. unfold signal. destruct ((0 <=? p) && _)%Z; reflexivity. Qed.
Lemma four_quarter c : ofZ (four_var c) = ofZ 4 * variance c \/ c = PAM3.
Proof. destruct c; auto; left; apply Qc_decomp; vm_compute; reflexivity. Qed.
Lemma mm_cursors t b k f c h main g a m q : full_period t b -> carries k c -> (0 <= main < Z.of_nat (length h))%Z -> (k * length h + 1 < length b)%nat -> (0 < m * length b + q)%nat ->
  let M := (m * length b + q)%nat in let x := line b k f c in
  exists rem, Qcabs rem <= ofZ (2 * Z.of_nat q * (top c * top c)) * magnitude h /\
    postcursor (received h main x a (S M)) (reference g x a (S M)) - precursor (received h main x a (S M)) (reference g x a (S M)) =
    g * (ofZ (Z.of_nat m) * variance c * ofZ (2 ^ Z.of_nat (prbs_value t)) * (signal h (main + 1) - signal h (main - 1)) + rem) / ofZ (Z.of_nat M).
Proof.
  intros Hb Hk Hmain Hlen HM M x. set (D := fun l => (Z.of_nat m * (corr b k f c (l + 1) - corr b k f c (l - 1)))%Z).
  exists (sumQ (map (fun j => signal h j * ofZ (tap_diff b k f c a M (main - j) - D (main - j))%Z) (instants (length h)))). split.
  - eapply Qcle_trans; [apply (sumQ_abs _ (fun j => ofZ (2 * Z.of_nat q * (top c * top c)) * Qcabs (signal h j)))|].
    + intros j _. rewrite Qcabs_Qcmult, Qcmult_comm. apply Qcmult_le_compat_r; [|apply Qcabs_nonneg]. pose proof (tap_diff_split t b Hb k f c Hk a m q (main - j)) as T. fold (D (main - j)%Z) in T. fold M in T. set (u := (tap_diff _ _ _ _ _ _ _ - _)%Z) in *.
      assert (E : Qcabs (ofZ u) = ofZ (Z.abs u)). { destruct (Z.abs_spec u) as [[G ->]|[G ->]]; [apply Qcabs_pos; change 0 with (ofZ 0); apply ofZ_le; lia|]. rewrite ofZ_opp. apply Qcabs_neg. change 0 with (ofZ 0). apply ofZ_le. lia. }
      rewrite E. now apply ofZ_le.
    + rewrite sumQ_map_scale. unfold magnitude. replace (sumQ (map (fun j => Qcabs (signal h j)) (instants (length h)))) with (sumQ (map Qcabs h)); [apply Qcle_refl|]. f_equal. apply (nth_ext_def 0); [unfold instants; now rewrite !map_length, seq_length|].
      intros i Hi. rewrite map_length in Hi. rewrite (map_nth_lt _ _ _ 0) by auto. unfold instants. rewrite map_map, nth_map_seq by auto. cbn [Nat.add]. now rewrite signal_nat.
  - rewrite mm_difference by auto. unfold Qcdiv. f_equal. f_equal. change (fun j => signal h j * ofZ (sums M (fun n => x (a + n) * x (a + (n + 1) + (main - j)) - x (a + (n + 1)) * x (a + n + (main - j)))%Z)) with (fun j => signal h j * ofZ (tap_diff b k f c a M (main - j))).
    assert (E : ofZ (Z.of_nat m) * variance c * ofZ (2 ^ Z.of_nat (prbs_value t)) * (signal h (main + 1) - signal h (main - 1)) = sumQ (map (fun j => signal h j * ofZ (D (main - j)%Z)) (instants (length h)))).
    { set (W := ofZ (Z.of_nat m) * variance c * ofZ (2 ^ Z.of_nat (prbs_value t))). transitivity (W * sumQ (map (fun j => signal h j * ofZ (if (j =? main + 1)%Z then 1 else 0)) (instants (length h))) + (- W) * sumQ (map (fun j => signal h j * ofZ (if (j =? main - 1)%Z then 1 else 0)) (instants (length h)))); [rewrite !pick_all; ring|].
      rewrite <- !sumQ_map_scale, <- sumQ_map_add. apply sumQ_map_ext. intros j Hj. apply in_instants in Hj. pose proof (tap_diff_cursor t b Hb k f c Hk m (main - j)) as T. fold (D (main - j)%Z) in T. rewrite (P_val t b Hb) in T.
      specialize (T ltac:(destruct Hk as [[-> _]|[-> _]]; lia)). apply (f_equal ofZ) in T. rewrite !ofZ_mul in T. assert (FQ : ofZ (four_var c) = ofZ 4 * variance c) by (destruct (four_quarter c) as [E| ->]; auto; destruct Hk as [[_ [|]]|[_]]; discriminate). rewrite FQ in T.
      assert (E4 : ofZ (D (main - j)%Z) = W * ofZ (if (main - j =? -1)%Z then 1 else if (main - j =? 1)%Z then -1 else 0)).
      { assert (N4 : ofZ 4 <> 0) by (intros X; apply (f_equal this) in X; discriminate). transitivity (/ ofZ 4 * (ofZ 4 * ofZ (D (main - j)%Z))); [rewrite Qcmult_assoc, (Qcmult_comm (/ ofZ 4)), Qcmult_inv_r by auto; ring|]. rewrite T. unfold W. set (s := ofZ (if (main - j =? -1)%Z then 1 else if (main - j =? 1)%Z then -1 else 0)). transitivity ((ofZ 4 * / ofZ 4) * (ofZ (Z.of_nat m) * variance c * ofZ (2 ^ Z.of_nat (prbs_value t)) * s)); [ring|]. rewrite Qcmult_inv_r by auto. ring. }
      rewrite E4. destruct (Z.eqb_spec (main - j) (-1)), (Z.eqb_spec (main - j) 1), (Z.eqb_spec j (main + 1)), (Z.eqb_spec j (main - 1)); try lia; change (ofZ 1) with (1 : Qc); change (ofZ 0) with (0 : Qc); change (ofZ (-1)) with (- (1) : Qc); ring. }
    rewrite E, <- sumQ_map_add. apply sumQ_map_ext. intros j _. rewrite ofZ_sub. ring.
Qed.
(** The transmitted levels are the line. *)
Lemma generated_bit t seed b sd N i : length seed = prbs_value t -> Forall (fun v => v = 0%Z \/ v = 1%Z) seed ->
  prbs_generator (get_polynomial t) seed (2 ^ Z.of_nat (prbs_value t) - 1) = Ok (b, sd) -> (i < N)%nat -> nth i (outbits (get_polynomial t) seed N) 0%Z = bit_at b (Z.of_nat i).
Proof.
  intros H1 H2 G Hi. pose proof (value_gt1 t) as V. assert (EP : (2 ^ Z.of_nat (prbs_value t) - 1)%Z = Z.of_nat (2 ^ prbs_value t - 1)) by (symmetry; apply maxlen_Z; auto). rewrite EP in G. rewrite gen_char in G by auto. injection G as <- _.
  pose proof (maxlen_pos _ V) as PP. unfold bit_at. rewrite outbits_length. rewrite <- Nat2Z.inj_mod, Nat2Z.id. assert ((i mod (2 ^ prbs_value t - 1) < 2 ^ prbs_value t - 1)%nat) by (apply Nat.mod_upper_bound; lia).
  rewrite !outbits_nth by auto. f_equal. apply iter_mod. apply (prbs_full_period t seed H1 H2).
Qed.
Lemma bits_symbol t seed b sd N k f i : length seed = prbs_value t -> Forall (fun v => v = 0%Z \/ v = 1%Z) seed ->
  prbs_generator (get_polynomial t) seed (2 ^ Z.of_nat (prbs_value t) - 1) = Ok (b, sd) -> (i < N)%nat -> symbol_value k f (outbits (get_polynomial t) seed (N * k)) i = symbol_value k f (bits_of b k (Z.of_nat i)) 0.
Proof.
  intros H1 H2 G Hi. unfold symbol_value. f_equal. apply map_ext_in. intros w Hw. apply in_seq in Hw. f_equal. unfold symbol_bit. set (pos := if bit_order_inv f then (k - 1 - w)%nat else w). assert (pos < k)%nat by (unfold pos; destruct (bit_order_inv f); lia).
  replace (nth (i * k + pos) (outbits (get_polynomial t) seed (N * k)) 0%Z) with (nth (0 * k + pos) (bits_of b k (Z.of_nat i)) 0%Z); auto. rewrite (generated_bit t seed b sd) by (auto; nia). unfold bits_of. cbn [Nat.mul Nat.add]. rewrite nth_map_seq by auto. f_equal. lia.
Qed.
Lemma sent_line t seed b sd N k f c : length seed = prbs_value t -> Forall (fun v => v = 0%Z \/ v = 1%Z) seed -> carries k c ->
  prbs_generator (get_polynomial t) seed (2 ^ Z.of_nat (prbs_value t) - 1) = Ok (b, sd) ->
  exists bs sd' syms, prbs_generator (get_polynomial t) seed (Z.of_nat (N * k)) = Ok (bs, sd') /\ bin2symbol bs (2 ^ Z.of_nat k) f = Ok syms /\
    mapping Qcopp (map ofZ (get_levels c)) None false (vec syms) = Ok (vec (reference 1 (line b k f c) 0 N)).
Proof.
  intros H1 H2 Hk G. assert (K : (1 <= k)%nat) by (destruct Hk as [[-> _]|[-> _]]; lia). set (bs := outbits (get_polynomial t) seed (N * k)). destruct (bin2symbol_value k bs f K) as (syms & E & Ls & Hv & Hr).
  assert (Lb : (length bs / k = N)%nat) by (unfold bs; rewrite outbits_length; apply Nat.div_mul; lia). rewrite Lb in *. assert (Rg : Forall (fun s => 0 <= s < 2 ^ Z.of_nat k)%Z syms) by (apply Hr; apply outbits_bits).
  do 3 eexists. split; [apply gen_char; auto|]. split; [exact E|]. unfold mapping. cbn [bind vec data shape]. assert (Lc : (Z.of_nat (length (map ofZ (get_levels c))) = 2 ^ Z.of_nat k)%Z) by (rewrite map_length; destruct Hk as [[-> [-> | ->]]|[-> ->]]; reflexivity).
  rewrite (np_take_map _ 0) by (rewrite Lc; exact Rg). cbn [bind]. f_equal. unfold vec. rewrite reference_length. f_equal; [now rewrite Ls|]. apply (nth_ext_def 0); [now rewrite map_length, reference_length|]. intros i Hi. rewrite map_length, Ls in Hi.
  rewrite (map_nth_lt _ _ _ 0%Z) by lia. unfold reference, instants. rewrite map_map, nth_map_seq by auto. cbn [Nat.add]. rewrite Z.add_0_l. unfold line. rewrite (Hv i Hi). unfold bs. rewrite (bits_symbol t seed b sd N k f i) by auto.
  set (s := Z.to_nat _). assert (Hs : (s < length (get_levels c))%nat). { assert (Q : (0 <= nth i syms 0 < 2 ^ Z.of_nat k)%Z) by (rewrite Forall_forall in Rg; apply Rg, nth_In; lia). rewrite (Hv i Hi) in Q. unfold bs in Q. rewrite (bits_symbol t seed b sd N k f i) in Q by auto. rewrite map_length in Lc. unfold s. lia. }
  rewrite (map_nth_lt _ _ _ 0%Z) by auto. ring.
Qed.

(** At most one tap is picked. *)
Lemma pick_one h (A : Z -> bool) : (forall i j, (0 <= i < Z.of_nat (length h))%Z -> (0 <= j < Z.of_nat (length h))%Z -> A i = true -> A j = true -> i = j) ->
  let s := sumQ (map (fun j => signal h j * ofZ (if A j then 1 else 0)) (instants (length h))) in
  (s = 0 /\ forall j, (0 <= j < Z.of_nat (length h))%Z -> A j = false) \/ exists j, (0 <= j < Z.of_nat (length h))%Z /\ A j = true /\ s = signal h j.
Proof.
  intros U s. destruct (existsb A (instants (length h))) eqn:Ex.
  - right. apply existsb_exists in Ex as (j & Hj & Aj). apply in_instants in Hj. exists j. split; [auto|]. split; [auto|]. rewrite <- (pick_all h j). apply sumQ_map_ext. intros i Hi. apply in_instants in Hi. do 2 f_equal. destruct (Z.eqb_spec i j) as [-> |N]; [now rewrite Aj|]. destruct (A i) eqn:Ai; auto. exfalso. apply N. now apply U.
  - left. assert (F : forall j, (0 <= j < Z.of_nat (length h))%Z -> A j = false). { intros j Hj. destruct (A j) eqn:Aj; auto. exfalso. apply in_instants in Hj. assert (existsb A (instants (length h)) = true) by (apply existsb_exists; eauto). congruence. }
    split; [|exact F]. unfold s. rewrite (sumQ_map_ext _ (fun _ => 0 * 0)); [rewrite sumQ_map_scale; ring|]. intros j Hj. apply in_instants in Hj. rewrite (F j Hj). change (ofZ 0) with (0 : Qc). ring.
Qed.
