(** The error checker of example_runs.py: NRZ sent, PAM4 received. *)
From Coq Require Import ZArith Reals Lra Lia Permutation.
From Flocq Require Import Core BinarySingleNaN.
From Verif Require Import Py PyQ B_list M_aux S_aux P_gf2 M_prbs S_prbs P_prbs P_prbs_cert P_prbs_gen M_symbol S_symbol P_symbol P_map M_coding P_coding M_lock S_lock P_lock P_checker P_viterbi M_f64 S_f64 P_f64 M_eq64 M_genie S_genie S_reach P_reach P_lms P_genie.
Import List ListNotations.
Open Scope Z_scope.

(** *** NRZ sent, PAM4 received *)
Definition outer (i : Z) : Z := if i =? 0 then 0 else 3.
Lemma outer_nearest i r : i = 0 \/ i = 1 -> is_finite r = true -> (Rabs (val r - val (level (levels64 NRZ true) (Z.to_nat i))) <= / 16)%R -> nearest_sent (levels64 PAM4 true) (level (levels64 PAM4 true) (Z.to_nat (outer i))) r.
Proof.
  intros Hi Fr H. rewrite (levels_ints NRZ) in H by discriminate. rewrite levels_ints by discriminate.
  assert (B : (15 / 16 <= (if i =? 0 then - val r else val r) <= 17 / 16)%R).
  { apply Rabs_le_inv in H. destruct Hi as [-> | ->]; cbn [Z.eqb]; revert H; unfold level, ints64, level_ints; change (Z.to_nat 0) with 0%nat; change (Z.to_nat 1) with 1%nat; cbn [get_levels map nth fst snd]; ovals; intros H; lra. }
  split.
  - split; auto. eapply Rle_trans; [|apply (bpow_le radix2 2 1022); lia]. change (bpow radix2 2) with 4%R. apply Rabs_le. destruct (i =? 0); lra.
  - intros l Hl Q. change (two (-52)) with (/ 4503599627370496)%R. unfold distance. apply (In_nth _ _ B754_nan) in Hl. destruct Hl as (j & Hj & El). fold (level (ints64 (level_ints PAM4 true)) j) in El. subst l.
    assert (J : j <> Z.to_nat (outer i)) by (intros ->; now apply Q). clear Q. cbn [level_ints ints64 map length] in Hj.
    destruct Hi as [-> | ->]; unfold outer in *; cbn [Z.eqb] in *; change (Z.to_nat 0) with 0%nat in *; change (Z.to_nat 3) with 3%nat in *; level_cases j; try lia; unfold level, ints64, level_ints; cbn [map nth fst snd]; ovals; unfold Rabs; destruct (Rcase_abs _), (Rcase_abs _); lra.
Qed.
Lemma f2_imp {A B C} (P : A -> Prop) (f g : A -> B) (R S : B -> C -> Prop) l : forall rx, Forall P l -> (forall a r, P a -> R (f a) r -> S (g a) r) -> Forall2 R (map f l) rx -> Forall2 S (map g l) rx.
Proof. induction l as [|a l IH]; intros rx HP H F; cbn [map] in *; inversion F; subst; constructor; inversion HP; subst; auto. Qed.
Lemma genie_nrz t seed N gray b y rx th : prbs_seed t seed -> tx_example t seed N 1 noflags NRZ true gray = Ok (b, y) ->
  Forall2 (fun x r => is_finite r = true /\ (Rabs (val r - val x) <= / 16)%R) y rx -> (2 ^ prbs_value t - 1 <= N)%nat ->
  exists e, genie_checker t 2 noflags PAM4 true true false rx th = Ok (th <=? Z.of_nat (n_errors e), Z.of_nat (2 * N) - Z.of_nat (n_errors e), e) /\
    2 ^ (Z.of_nat (prbs_value t) - 1) <= Z.of_nat (n_errors (firstn (2 * (2 ^ prbs_value t - 1)) e)).
Proof.
  intros Hs E F HP. assert (Hk : bits_select 1 NRZ) by reflexivity.
  destruct (tx_char t seed N 1 noflags NRZ true gray Hs Hk) as (syms & _ & Ls & R & _ & T). rewrite E in T. apply ok_pair in T. destruct T as (-> & ->).
  assert (G : map (gmap NRZ gray) syms = syms) by (rewrite <- (map_id syms) at 2; apply map_ext; reflexivity). rewrite G in F. clear G E.
  set (q := map outer syms). assert (Rq : in_range PAM4 q) by (unfold in_range, q; rewrite Forall_map; apply Forall_forall; intros i _; unfold outer; destruct (i =? 0); cbn; lia).
  assert (Lq : length q = N) by (unfold q; now rewrite map_length).
  assert (Lx : length q = length rx) by (apply f2_length in F; unfold levels_of in F; rewrite map_length in F; lia).
  assert (FN : Forall2 (nearest_sent (levels64 PAM4 true)) (levels_of (levels64 PAM4 true) q) rx).
  { unfold q, levels_of in *. rewrite map_map. refine (f2_imp _ _ _ _ _ syms rx R _ F). intros i r Hi (F1 & F2). apply outer_nearest; auto. cbn in Hi. lia. }
  destruct (received_any 2 noflags PAM4 true false rx eq_refl (nearest_fine _ _ _ FN)) as (r & Lr & Rr & _ & E1 & U). rewrite <- (U q Lx Rq FN) in E1. clear U r Lr Rr.
  assert (E2 : received_bits 2 noflags PAM4 true true false rx = Ok (concat (map (fun s => [s; s]) syms))).
  { rewrite E1, symbol2bin_rows by (lia || (right; auto)). f_equal. f_equal. unfold q. rewrite !map_map. apply map_ext_in. intros i Hi. unfold in_range in R. rewrite Forall_forall in R. specialize (R i Hi). cbn in R.
    assert (i = 0 \/ i = 1) as [-> | ->] by lia; reflexivity. }
  unfold genie_checker. rewrite E2. cbn [bind]. set (d := concat (map (fun s => [s; s]) syms)). assert (Ld : length d = (2 * N)%nat).
  { unfold d. rewrite (concat_length_const 2); [rewrite map_length; lia|]. rewrite Forall_map. apply Forall_forall. reflexivity. }
  assert (HP0 := maxlen_pos _ (value_gt1 t)). set (P := (2 ^ prbs_value t - 1)%nat) in *.
  assert (Bd : bits d).
  { unfold d. clear - R. induction R as [|s l Hs R IH]; cbn [map concat]; [constructor|]. cbn in Hs. cbn [app]. repeat (apply Forall_cons; [unfold isbit; lia|]). exact IH. }
  destruct (checker_any t d th Bd) as (u & e & Hu & Ec & Le & He). { intros Q. rewrite Q in Ld. cbn in Ld. lia. }
  exists e. split; [rewrite Ec, Ld; reflexivity|]. rewrite <- n_errors_sum by lia. rewrite sum_pairs.
  set (g := fun j => if nth j e false then 1 else 0).
  assert (X : forall i, (i < P)%nat -> 1 + (-1) * (nrz (ubit t u (2 * i)) * nrz (ubit t u (2 * i + 1))) <= 2 * (g (2 * i)%nat + g (2 * i + 1)%nat)).
  { intros i Hi. unfold g. rewrite !He by lia. rewrite !ubit_nth by lia. destruct (pairs_nth (fun s => [s; s]) syms i (fun _ => eq_refl) ltac:(lia)) as (A1 & A2). fold d in A1, A2. rewrite A1, A2. cbn [nth].
    assert (S := Forall_nth_lt _ _ i 0 R ltac:(lia)). cbn in S. assert (S' : nth i syms 0 = 0 \/ nth i syms 0 = 1) by lia.
    unfold nrz. destruct (ubit_isbit t u (2 * i)) as [-> | ->], (ubit_isbit t u (2 * i + 1)) as [-> | ->], S' as [-> | ->]; cbn; lia. }
  assert (PW : Z.of_nat P = 2 * 2 ^ (Z.of_nat (prbs_value t) - 1) - 1).
  { unfold P. rewrite maxlen_Z by apply value_gt1. assert (V := value_gt1 t). replace (Z.of_nat (prbs_value t)) with (1 + (Z.of_nat (prbs_value t) - 1)) at 1 by lia. rewrite Z.pow_add_r by lia. lia. }
  assert (M : sumZ (map (fun i => 1 + (-1) * (nrz (ubit t u (2 * i)) * nrz (ubit t u (2 * i + 1)))) (seq 0 P)) <= sumZ (map (fun i => 2 * (g (2 * i)%nat + g (2 * i + 1)%nat)) (seq 0 P))) by (apply sumZ_le; intros i Hi; apply in_seq in Hi; apply X; lia).
  rewrite sumZ_map_add, sumZ_map_const, !sumZ_map_mul, seq_length in M. assert (Y := sum_even_pairs t u Hu). fold P in Y. rewrite Y in M. unfold g in *. lia.
Qed.
