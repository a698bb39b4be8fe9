(** Proofs about the PRBS generator. *)
From Verif Require Import Py B_list M_aux M_prbs P_gf2 S_prbs.
From Coq Require Import Permutation.
Ltac Zify.zify_post_hook ::= Z.div_mod_to_equations.

(** * The step is linear *)
Lemma dotZ_xorv p u v : length u = length v ->
  dotZ p (xorv u v) mod 2 = (dotZ p u + dotZ p v) mod 2.
Proof.
  revert u v; induction p as [|a p IH]; intros [|b u] [|c v]; simpl; intros H; try lia; auto.
  specialize (IH u v ltac:(lia)). unfold xorv in IH. unfold xorZ at 1.
  rewrite Z.add_mod, IH by lia. rewrite Z.mul_mod_idemp_r by lia.
  rewrite <- Z.add_mod by lia. f_equal. lia.
Qed.
Lemma lfsr_step_lin n p : (0 < n)%nat -> lin n (lfsr_step p).
Proof.
  intros Hn. split.
  - intros v [H1 H2]. destruct n as [|n]; [lia|]. apply bv_cons. split; [apply isbit_mod|].
    split. rewrite removelast_length; lia. now apply Forall_removelast.
  - intros u v [H1 H2] [H3 H4]. unfold lfsr_step.
    change (xorv (lfsr_bit p u :: removelast u) (lfsr_bit p v :: removelast v)) with
      (xorZ (lfsr_bit p u) (lfsr_bit p v) :: xorv (removelast u) (removelast v)).
    f_equal.
    + unfold lfsr_bit, xorZ. rewrite dotZ_xorv by lia. rewrite <- Z.add_mod by lia. reflexivity.
    + unfold xorv. apply removelast_map2. lia.
Qed.

(** * Divisor check by trial division *)
Fixpoint div_check (fuel : nat) (d N : Z) (qs : list Z) : bool :=
  match fuel with
  | O => true
  | S k => (if N mod d =? 0 then
              (if 1 <? d then existsb (fun q => d mod q =? 0) qs else true) &&
              (if 1 <? N / d then existsb (fun q => (N / d) mod q =? 0) qs else true)
            else true) && div_check k (d + 1) N qs
  end.
Lemma div_check_spec fuel : forall d N qs, div_check fuel d N qs = true ->
  forall e, d <= e < d + Z.of_nat fuel -> N mod e = 0 ->
    (1 < e -> exists q, In q qs /\ e mod q = 0) /\ (1 < N / e -> exists q, In q qs /\ (N / e) mod q = 0).
Proof.
  induction fuel; intros d N qs H e He Hm; [lia|].
  cbn [div_check] in H. apply andb_true_iff in H. destruct H as [H1 H2].
  destruct (Z.eq_dec e d) as [->|].
  - rewrite Hm in H1. simpl in H1. apply andb_true_iff in H1. destruct H1 as [H1 H3]. split; intros L.
    + apply Z.ltb_lt in L. rewrite L in H1. apply existsb_exists in H1. destruct H1 as [q [Hq E]]. exists q. split; auto. now apply Z.eqb_eq.
    + apply Z.ltb_lt in L. rewrite L in H3. apply existsb_exists in H3. destruct H3 as [q [Hq E]]. exists q. split; auto. now apply Z.eqb_eq.
  - apply (IHfuel (d+1) N qs H2 e); auto. lia.
Qed.
(** Every divisor > 1 of N is divisible by one of the qs. *)
Lemma div_check_all S N qs : 0 < N -> (Z.of_nat S + 1) * (Z.of_nat S + 1) > N -> div_check S 1 N qs = true ->
  forall h, 1 < h -> (h | N) -> exists q, In q qs /\ h mod q = 0.
Proof.
  intros HN HS H h Hh Hd. destruct Hd as [c Hc].
  assert (0 < c) by nia.
  destruct (Z_le_gt_dec h (Z.of_nat S)) as [L|G].
  - destruct (div_check_spec S 1 N qs H h) as [A _]; try lia. subst N. rewrite Z.mod_mul; lia. auto.
  - assert (c <= Z.of_nat S) by nia.
    destruct (div_check_spec S 1 N qs H c) as [_ A]; try lia.
    + subst N. rewrite Z.mul_comm, Z.mod_mul; lia.
    + replace (N / c) with h in A. auto. subst N. rewrite Z.mul_comm, Z.div_mul; lia.
Qed.

(** * Iteration and periods *)
Section Iter.
  Context {A : Type} (f : A -> A).
  Lemma iter_mul a b x : Nat.iter b f x = x -> Nat.iter (a * b) f x = x.
  Proof. intros H. induction a; simpl; auto. rewrite iter_add, IHa; auto. Qed.
  Lemma iter_mod a b x : Nat.iter b f x = x -> Nat.iter a f x = Nat.iter (a mod b) f x.
  Proof.
    intros H. destruct b as [|b]; [reflexivity|].
    transitivity (Nat.iter (a mod S b + a / S b * S b) f x).
    - f_equal. rewrite Nat.mul_comm, Nat.add_comm. apply Nat.div_mod. lia.
    - rewrite iter_add, iter_mul; auto.
  Qed.
  Lemma iter_gcd b : forall a x, Nat.iter a f x = x -> Nat.iter b f x = x -> Nat.iter (Nat.gcd a b) f x = x.
  Proof.
    intros a. revert b. induction a as [a IH] using (well_founded_induction lt_wf). intros b x Ha Hb.
    destruct a as [|a]; [exact Hb|].
    rewrite <- Nat.gcd_mod by lia. apply IH; auto.
    - apply Nat.mod_upper_bound; lia.
    - rewrite <- iter_mod; auto.
  Qed.
End Iter.

(** Data describing one polynomial: size, order 2^n-1, its prime divisors. *)
Definition maxlen_cert (n : nat) (p : list Z) (qs : list Z) : Prop :=
  let N := 2 ^ Z.of_nat n - 1 in
  period_ok n (lfsr_step p) (Z.to_pos N) /\
  (forall q, In q qs -> 1 < q /\ fix_ok n (lfsr_step p) (Z.to_pos (N / q)) (Z.to_pos (N - 1))) /\
  (forall h, 1 < h -> (h | N) -> exists q, In q qs /\ h mod q = 0).

Lemma pow_nat_Z k : Z.of_nat (2 ^ k) = 2 ^ Z.of_nat k.
Proof. now rewrite Nat2Z.inj_pow. Qed.
Lemma maxlen_pos n : (1 < n)%nat -> (0 < 2 ^ n - 1)%nat.
Proof. intros Hn. assert (2 ^ 1 < 2 ^ n)%nat by (apply Nat.pow_lt_mono_r; lia). simpl in *. lia. Qed.
Lemma maxlen_Z n : (1 < n)%nat -> Z.of_nat (2 ^ n - 1) = 2 ^ Z.of_nat n - 1.
Proof. intros Hn. assert (H := maxlen_pos n Hn). rewrite Nat2Z.inj_sub, pow_nat_Z; lia. Qed.

(** all n-bit vectors *)
Fixpoint all_bv (n : nat) : list (list Z) :=
  match n with O => [[]] | S k => map (cons 0) (all_bv k) ++ map (cons 1) (all_bv k) end.
Lemma all_bv_length k : length (all_bv k) = (2 ^ k)%nat.
Proof. induction k; simpl; auto. rewrite app_length, !map_length, IHk. lia. Qed.
Lemma all_bv_In k v : In v (all_bv k) <-> bv k v.
Proof.
  revert v; induction k; intros v; simpl.
  - split; [intros [<-|[]]; split; auto; constructor|]. intros [H _]. destruct v; simpl in *; auto; lia.
  - rewrite in_app_iff, !in_map_iff. split.
    + intros [[w [<- H]]|[w [<- H]]]; apply bv_cons; split; try apply IHk; auto; [left|right]; auto.
    + destruct v as [|b v]; intros H; [destruct H; simpl in *; lia|].
      apply bv_cons in H. destruct H as [[->| ->] H]; [left|right]; exists v; split; auto; now apply IHk.
Qed.
Lemma NoDup_map_inj {B C} (g : B -> C) l : (forall x y, g x = g y -> x = y) -> NoDup l -> NoDup (map g l).
Proof. intros Hg. induction 1; simpl; constructor; auto. rewrite in_map_iff. intros [y [E Hy]]. apply Hg in E; subst; auto. Qed.
Lemma NoDup_app_intro {B} (l1 l2 : list B) : NoDup l1 -> NoDup l2 -> (forall x, In x l1 -> ~ In x l2) -> NoDup (l1 ++ l2).
Proof. induction 1; simpl; auto. intros H2 H3. constructor; [rewrite in_app_iff; intros [?|?]; [auto|eapply H3; eauto]|]. apply IHNoDup; auto. Qed.
Lemma all_bv_NoDup k : NoDup (all_bv k).
Proof.
  induction k; simpl. { constructor; simpl; auto. constructor. }
  apply NoDup_app_intro; try (apply NoDup_map_inj; auto; congruence).
  intros x H1 H2. rewrite in_map_iff in *. destruct H1 as [? [<- _]], H2 as [? [? _]]. congruence.
Qed.
Lemma all_bv_head k : all_bv k = zerov k :: tl (all_bv k).
Proof. induction k; simpl; auto. rewrite IHk. reflexivity. Qed.

Section MaxLen.
  Context (n : nat) (p : list Z) (qs : list Z) (Hn : (1 < n)%nat) (Hc : maxlen_cert n p qs).
  Let f := lfsr_step p.
  Let N := (2 ^ n - 1)%nat.
  Let N_pos : (0 < N)%nat := maxlen_pos n Hn.
  Let N_Z : Z.of_nat N = 2 ^ Z.of_nat n - 1 := maxlen_Z n Hn.
  Lemma f_lin : lin n f.
  Proof. apply lfsr_step_lin. lia. Qed.
  Lemma full_period v : bv n v -> Nat.iter N f v = v.
  Proof.
    intros Hv. destruct Hc as [H1 _]. assert (E := period_ok_spec n f _ v f_lin H1 Hv).
    rewrite <- N_Z in E. assert (P := N_pos).
    replace (Pos.to_nat (Z.to_pos (Z.of_nat N))) with N in E; auto.
    apply Nat2Z.inj. rewrite positive_nat_Z, Z2Pos.id by lia. reflexivity.
  Qed.
  Lemma least_period v d : bv n v -> v <> zerov n -> (0 < d)%nat -> Nat.iter d f v = v -> Nat.divide N d.
  Proof.
    intros Hv Hz Hd E. assert (P := N_pos).
    set (g := Nat.gcd d N).
    assert (Eg : Nat.iter g f v = v) by (apply iter_gcd; auto; now apply full_period).
    assert (Hgd : Nat.divide g d) by apply Nat.gcd_divide_l.
    assert (HgN : Nat.divide g N) by apply Nat.gcd_divide_r.
    destruct HgN as [h Hh].
    destruct (Nat.eq_dec h 1) as [->|Hh1].
    { replace N with g by lia. auto. }
    exfalso. assert (h <> 0)%nat by (intros ->; lia).
    destruct Hc as (_ & H2 & H3).
    destruct (H3 (Z.of_nat h)) as [q [Hq Hqm]]; [lia| |].
    { rewrite <- N_Z. exists (Z.of_nat g). nia. }
    destruct (H2 q Hq) as [Hq1 Hfix].
    apply Hz.
    apply (fix_ok_spec n f _ _ v f_lin Hfix Hv).
    set (m := Z.to_pos _).
    assert (Hm : exists w, Pos.to_nat m = (w * g)%nat /\ (0 < w)%nat).
    { exists (Z.to_nat (Z.of_nat h / q)).
      assert (Hdiv : Z.of_nat h = q * (Z.of_nat h / q)) by (apply Z_div_exact_full_2; lia).
      assert (0 < Z.of_nat h / q) by nia.
      split; [|lia].
      apply Nat2Z.inj. rewrite positive_nat_Z. rewrite Nat2Z.inj_mul, Z2Nat.id by lia.
      unfold m. rewrite <- N_Z.
      assert (Eq : Z.of_nat N / q = Z.of_nat h / q * Z.of_nat g).
      { rewrite Hh. rewrite Nat2Z.inj_mul. rewrite Hdiv at 1.
        replace (q * (Z.of_nat h / q) * Z.of_nat g) with ((Z.of_nat h / q * Z.of_nat g) * q) by ring.
        apply Z.div_mul. lia. }
      rewrite Eq. apply Z2Pos.id. assert (0 < g)%nat by (destruct g; lia). nia. }
    destruct Hm as [w [-> _]]. now apply iter_mul.
  Qed.
  Lemma iter_bv v k : bv n v -> bv n (Nat.iter k f v).
  Proof. intros. destruct (lin_iter n f k f_lin) as [H1 _]. auto. Qed.
  Lemma iter_inj v i j : bv n v -> v <> zerov n -> (i < N)%nat -> (j < N)%nat ->
    Nat.iter i f v = Nat.iter j f v -> i = j.
  Proof.
    intros Hv Hz. assert (Haux : forall i j, (i < j)%nat -> (j < N)%nat -> Nat.iter i f v <> Nat.iter j f v).
    { clear i j. intros i j Hij HjN E.
      assert (E2 : Nat.iter (j - i) f v = v).
      { rewrite <- (full_period v Hv) at 2. replace N with ((N - i) + i)%nat by lia.
        rewrite iter_add, E. rewrite <- iter_add. replace (N - i + j)%nat with ((j - i) + N)%nat by lia.
        rewrite iter_add, full_period by auto. reflexivity. }
      apply least_period in E2; auto; [|lia]. apply Nat.divide_pos_le in E2; lia. }
    intros Hi Hj E. destruct (Nat.lt_trichotomy i j) as [L|[L|L]]; auto; exfalso.
    - apply (Haux i j); auto.
    - apply (Haux j i); auto.
  Qed.
  Lemma iter_nonzero v k : bv n v -> v <> zerov n -> Nat.iter k f v <> zerov n.
  Proof.
    intros Hv Hz E. apply Hz.
    assert (P := N_pos).
    rewrite <- (full_period v Hv). 
    assert (E2 : Nat.iter (k mod N) f v = zerov n) by (rewrite <- iter_mod; auto; now apply full_period).
    assert (k mod N < N)%nat by (apply Nat.mod_upper_bound; lia).
    replace N with ((N - k mod N) + k mod N)%nat by lia. rewrite iter_add, E2.
    apply (lin_zero n (fun v => Nat.iter (N - k mod N) f v)). apply lin_iter, f_lin.
  Qed.

  Lemma visits_all v : bv n v -> v <> zerov n ->
    Permutation (map (fun k => Nat.iter k f v) (seq 0 N)) (tl (all_bv n)).
  Proof.
    intros Hv Hz. apply NoDup_Permutation_bis.
    - assert (forall l, (forall x, In x l -> (x < N)%nat) -> NoDup l -> NoDup (map (fun k => Nat.iter k f v) l)) as Haux.
      { intros l Hl. induction 1; simpl; constructor; auto.
        - rewrite in_map_iff. intros [y [E Hy]]. apply iter_inj in E; auto; [subst; auto| |]; apply Hl; simpl; auto.
        - apply IHNoDup. intros; apply Hl; simpl; auto. }
      apply Haux; [|apply seq_NoDup]. intros x Hx. apply in_seq in Hx. lia.
    - rewrite map_length, seq_length. assert (L := all_bv_length n). rewrite all_bv_head in L. simpl in L. unfold N.
      assert (0 < 2 ^ n)%nat by (apply Nat.neq_0_lt_0, Nat.pow_nonzero; lia). lia.
    - intros x Hx. rewrite in_map_iff in Hx. destruct Hx as [k [<- _]].
      assert (H : In (Nat.iter k f v) (all_bv n)) by (apply all_bv_In, iter_bv, Hv).
      rewrite all_bv_head in H. destruct H as [H|H]; auto. exfalso. symmetry in H. now apply iter_nonzero in H.
  Qed.
End MaxLen.
