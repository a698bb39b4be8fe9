(** Proofs on the documented error checking script. *)
From Coq Require Import ZArith Reals Lra Lia Permutation.
From Flocq Require Import Core BinarySingleNaN.
From Verif Require Import Py PyQ B_list M_aux S_aux P_gf2 M_prbs S_prbs P_prbs P_prbs_cert P_prbs_gen M_symbol S_symbol P_symbol P_map M_coding P_coding M_lock S_lock P_lock P_checker P_viterbi M_f64 S_f64 P_f64 M_eq64 M_genie S_genie S_reach P_reach P_lms.
Import List ListNotations.
Open Scope Z_scope.

(** *** The levels in double precision *)
Lemma same_list (u v : list f64) : map B2SF u = map B2SF v -> u = v.
Proof. revert v. induction u as [|a u IH]; intros [|b v] H; try discriminate; auto. cbn [map] in H. injection H as H1 H2. f_equal; [now apply B2SF_inj|auto]. Qed.
Definition ints64 (l : list (Z * Z)) : list f64 := map (fun p => of_int (fst p) (snd p)) l.
Definition level_ints (c : constellation) (fs : bool) : list (Z * Z) :=
  match c, fs with
  | OOK, true => [(0, 0); (6369051672525772, -52)]
  | PAM4, true => [(-6042212946145891, -52); (-8056283928194521, -54); (8056283928194521, -54); (6042212946145891, -52)]
  | _, _ => map (fun z => (z, 0)) (get_levels c)
  end.
Lemma levels_ints c fs : c <> PAM3 -> levels64 c fs = ints64 (level_ints c fs).
Proof. intros H. apply same_list. destruct c, fs; try congruence; vm_compute; reflexivity. Qed.
Lemma levels_length c fs : length (levels64 c fs) = length (get_levels c).
Proof. unfold levels64. destruct fs; now rewrite map_length. Qed.
Lemma ov m e : ((Z.abs m <=? 2 ^ 53) && (-1074 <=? e) && (e <=? 900))%Z = true -> val (of_int m e) = (IZR m * bpow radix2 e)%R.
Proof. intros H. apply of_int_val; lia. Qed.
Lemma levels_fine c fs : c <> PAM3 -> Forall fine (levels64 c fs).
Proof.
  intros H. rewrite levels_ints by auto. unfold ints64. apply Forall_forall. intros x Hx. apply in_map_iff in Hx. destruct Hx as ((m, e) & <- & I). cbn [fst snd].
  apply of_int_fine; destruct c, fs; try congruence; cbn in I; repeat (destruct I as [[= <- <-]|I]; [lia|]); destruct I.
Qed.
(** Twice the level number, as a multiple of the first distance, to within a thousandth. *)
Lemma p52 : bpow radix2 (-52) = (/ 4503599627370496)%R. Proof. reflexivity. Qed.
Lemma p54 : bpow radix2 (-54) = (/ 18014398509481984)%R. Proof. reflexivity. Qed.
Lemma p53 : bpow radix2 (-53) = (/ 9007199254740992)%R. Proof. reflexivity. Qed.
Lemma p51 : bpow radix2 (-51) = (/ 2251799813685248)%R. Proof. reflexivity. Qed.
Lemma p0 : bpow radix2 0 = 1%R. Proof. reflexivity. Qed.
Ltac ovals := repeat match goal with |- context [val (of_int ?m ?e)] => rewrite (ov m e eq_refl) end; rewrite ?p52, ?p54, ?p53, ?p51, ?p0.
Ltac level_cases i := destruct i as [|[|[|[|i]]]].
Lemma levels_increasing c fs : c <> PAM3 -> increasing (levels64 c fs).
Proof.
  intros H i j. rewrite levels_length. intros Hij. rewrite levels_ints by auto.
  destruct c, fs; try congruence; cbn [get_levels length] in Hij; level_cases i; try lia; level_cases j; try lia; unfold level, ints64, level_ints; cbn [get_levels map nth fst snd]; ovals; lra.
Qed.
Lemma level_in c fs i : (i < length (get_levels c))%nat -> In (level (levels64 c fs) i) (levels64 c fs).
Proof. intros H. apply nth_In. now rewrite levels_length. Qed.
Lemma level_inj c fs i j : c <> PAM3 -> (i < length (get_levels c))%nat -> (j < length (get_levels c))%nat -> level (levels64 c fs) i = level (levels64 c fs) j -> i = j.
Proof.
  intros H Hi Hj E. destruct (Nat.lt_trichotomy i j) as [A|[A|A]]; auto; exfalso.
  - pose proof (levels_increasing c fs H i j ltac:(rewrite levels_length; lia)) as Q. rewrite E in Q. lra.
  - pose proof (levels_increasing c fs H j i ltac:(rewrite levels_length; lia)) as Q. rewrite E in Q. lra.
Qed.

(** *** Demapping of the levels *)
Definition quotient64 (lv : list f64) (x : f64) : f64 := div64 (sub64 x (fold_right min64 (hd B754_nan lv) lv)) (sub64 (nth 1 lv B754_nan) (nth 0 lv B754_nan)).
Lemma index_case lv x m e k : quotient64 lv x = of_int m e -> ((Z.abs m <=? 2 ^ 53) && (-1074 <=? e) && (e <=? 900))%Z = true -> (Rabs (IZR m * bpow radix2 e - IZR k) < / 2)%R -> level_index64 lv x = k.
Proof. intros E O H. unfold level_index64. fold (quotient64 lv x). rewrite E, (ov _ _ O). apply Znearest_imp. exact H. Qed.
Definition quotient_ints (c : constellation) (fs : bool) : list (Z * Z) :=
  match c, fs with
  | PAM4, true => [(0, 0); (1, 0); (9007199254740991, -52); (6755399441055743, -51)]
  | _, _ => [(0, 0); (1, 0); (2, 0); (3, 0)]
  end.
Lemma quotients c fs : c <> PAM3 -> map (quotient64 (levels64 c fs)) (levels64 c fs) = firstn (length (get_levels c)) (ints64 (quotient_ints c fs)).
Proof. intros H. apply same_list. destruct c, fs; try congruence; vm_compute; reflexivity. Qed.
Lemma index_of_level c fs i : c <> PAM3 -> (i < length (get_levels c))%nat -> level_index64 (levels64 c fs) (level (levels64 c fs) i) = Z.of_nat i.
Proof.
  intros H Hi. assert (E : quotient64 (levels64 c fs) (level (levels64 c fs) i) = level (ints64 (quotient_ints c fs)) i).
  { transitivity (level (map (quotient64 (levels64 c fs)) (levels64 c fs)) i); [unfold level; rewrite (map_nth_lt _ _ _ (B754_nan : f64)) by (now rewrite levels_length); reflexivity|].
    rewrite quotients by auto. unfold level. now rewrite nth_firstn by auto. }
  destruct c, fs; try congruence; cbn [get_levels length] in Hi; level_cases i; try lia; unfold level at 2, ints64, quotient_ints in E; cbn [map nth fst snd] in E;
    (eapply index_case; [exact E|reflexivity|]); cbn [Z.of_nat Pos.of_succ_nat Pos.succ]; rewrite ?p52, ?p51, ?p0; apply Rabs_def1; lra.
Qed.
Lemma demap_levels c fs idx : c <> PAM3 -> Forall (fun i => (i < length (get_levels c))%nat) idx ->
  demap64 c fs (vec (map (level (levels64 c fs)) idx)) = Ok (vec (map Z.of_nat idx)).
Proof.
  intros H F. unfold demap64. rewrite (demapping_with_ok _ _ _ false _ idx).
  - unfold vec. cbn [shape]. now rewrite !map_length.
  - unfold vec. cbn [data shape size fold_right]. lia.
  - cbn [vec data]. rewrite levels_length. induction F as [|i l Hi F IH]; cbn [map]; constructor; auto. split; auto. now apply index_of_level.
Qed.
(** README: full-scale decisions demapped without full_scale. *)
Definition shrunk (i : nat) : nat := if (i <? 2)%nat then 1%nat else 2%nat.
Lemma shrunk_quotients : map (quotient64 (levels64 PAM4 false)) (levels64 PAM4 true) = ints64 [(7468585935965597, -53); (5748363950031429, -52); (7762434932080059, -52); (4888252957064345, -51)].
Proof. apply same_list. vm_compute. reflexivity. Qed.
Lemma demap_shrunk idx : Forall (fun i => (i < 4)%nat) idx -> demap64 PAM4 false (vec (map (level (levels64 PAM4 true)) idx)) = Ok (vec (map Z.of_nat (map shrunk idx))).
Proof.
  intros F. unfold demap64. rewrite (demapping_with_ok _ _ _ false _ (map shrunk idx)).
  - unfold vec. cbn [shape]. now rewrite !map_length.
  - unfold vec. cbn [data shape size fold_right]. lia.
  - cbn [vec data]. rewrite levels_length. induction F as [|i l Hi F IH]; cbn [map]; constructor; auto. split; [unfold shrunk; destruct (i <? 2)%nat; cbn; lia|].
    assert (E : quotient64 (levels64 PAM4 false) (level (levels64 PAM4 true) i) = level (map (quotient64 (levels64 PAM4 false)) (levels64 PAM4 true)) i) by (unfold level; rewrite (map_nth_lt _ _ _ (B754_nan : f64)) by (now rewrite levels_length); reflexivity).
    rewrite shrunk_quotients in E. level_cases i; try lia; unfold level at 2, ints64 in E; cbn [map nth fst snd] in E; (eapply index_case; [exact E|reflexivity|]); cbn [shrunk Nat.ltb Nat.leb Z.of_nat Pos.of_succ_nat Pos.succ]; rewrite ?p52, ?p51, ?p53; apply Rabs_def1; lra.
Qed.

(** *** The transmitter *)
Lemma select_cases k c : bits_select k c -> (k = 1%nat /\ (c = OOK \/ c = NRZ)) \/ (k = 2%nat /\ c = PAM4).
Proof.
  unfold bits_select. intros H. destruct k as [|[|[|k]]]; [| | |exfalso].
  1,2,3: destruct c; cbn in H; try discriminate H; auto.
  replace (Z.of_nat (S (S (S k)))) with (3 + Z.of_nat k) in H by lia. rewrite Z.pow_add_r in H by lia.
  assert (0 < 2 ^ Z.of_nat k) by (apply Z.pow_pos_nonneg; lia). change (2 ^ 3) with 8 in H. revert H. generalize dependent (2 ^ Z.of_nat k). intros z Hz H. assert (length (get_levels c) <= 4)%nat by (destruct c; cbn; lia). lia.
Qed.
Lemma select_not_pam3 k c : bits_select k c -> c <> PAM3.
Proof. intros H. destruct (select_cases k c H) as [(_ & [-> | ->])|(_ & ->)]; discriminate. Qed.
Lemma select_pos k c : bits_select k c -> (1 <= k)%nat.
Proof. intros H. destruct (select_cases k c H) as [(-> & _)|(-> & _)]; lia. Qed.
Definition gmap (c : constellation) (gray : bool) (i : Z) : Z := match c with PAM4 => if gray then nth (Z.to_nat i) [0; 1; 3; 2] 0 else i | _ => i end.
Lemma four i : 0 <= i < Z.of_nat (length (get_levels PAM4)) -> i = 0 \/ i = 1 \/ i = 2 \/ i = 3.
Proof. cbn [get_levels length]. lia. Qed.
Lemma gmap_range c gray l : in_range c l -> in_range c (map (gmap c gray) l).
Proof.
  intros H. unfold in_range. rewrite Forall_map. eapply Forall_impl; [|exact H]. intros i Hi. destruct c; auto. destruct gray; auto.
  apply four in Hi. destruct Hi as [->|[->|[->| ->]]]; split; vm_compute; congruence.
Qed.
Lemma gmap_invol c gray l : in_range c l -> map (gmap c gray) (map (gmap c gray) l) = l.
Proof.
  intros H. rewrite map_map. rewrite <- (map_id l) at 2. apply map_ext_in. intros i Hi. unfold in_range in H. rewrite Forall_forall in H. specialize (H i Hi).
  destruct c; auto. destruct gray; auto. apply four in H. destruct H as [->|[->|[->| ->]]]; reflexivity.
Qed.
Lemma take_gray (l : list Z) : in_range PAM4 l -> np_take (get_gray_level_vec 4) l = Ok (map (gmap PAM4 true) l).
Proof. intros H. now rewrite (np_take_map _ 0) by exact H. Qed.
Lemma gray_on c (gray : bool) l : c <> PAM3 -> in_range c l -> (if gray then coding_gray c (vec l) else Ok (vec l)) = Ok (vec (map (gmap c gray) l)).
Proof.
  intros Nc H. assert (I : forall c', c' <> PAM4 -> map (gmap c' gray) l = l) by (intros c' Hc'; rewrite <- (map_id l) at 2; apply map_ext; intros i; destruct c'; auto; congruence).
  destruct c; try congruence; [rewrite I by discriminate; now destruct gray|rewrite I by discriminate; now destruct gray|].
  destruct gray; [|cbn [gmap]; now rewrite map_id]. unfold coding_gray. cbn [get_levels length]. change (1 <? ceil_log2 4)%nat with true. cbv iota. cbn [vec data shape].
  rewrite take_gray by exact H. cbn [bind]. unfold vec. now rewrite map_length.
Qed.
Lemma gray_off c (gray : bool) l : c <> PAM3 -> in_range c l -> (if gray then decoding_gray c (vec l) else Ok (vec l)) = Ok (vec (map (gmap c gray) l)).
Proof.
  intros Nc H. assert (I : forall c', c' <> PAM4 -> map (gmap c' gray) l = l) by (intros c' Hc'; rewrite <- (map_id l) at 2; apply map_ext; intros i; destruct c'; auto; congruence).
  destruct c; try congruence; [| |].
  1,2: rewrite I by discriminate; destruct gray; auto; apply gray_dec_two; [reflexivity|exact H].
  destruct gray; [|cbn [gmap]; now rewrite map_id]. unfold decoding_gray. cbn [get_levels length]. change (1 <? ceil_log2 4)%nat with true. cbv iota. cbn [vec data shape].
  rewrite take_gray by exact H. cbn [bind]. unfold vec. now rewrite map_length.
Qed.
Lemma level_levels_of lv q i : (i < length q)%nat -> level (levels_of lv q) i = level lv (Z.to_nat (nth i q 0)).
Proof. intros H. unfold levels_of. unfold level at 1. now rewrite (map_nth_lt _ q i 0). Qed.
Lemma seed_bv t seed : prbs_seed t seed -> length seed = prbs_value t /\ bits seed /\ seed <> repeat 0 (prbs_value t).
Proof. intros (A & B & C). auto. Qed.
Lemma tx_char t seed N k f c fs gray : prbs_seed t seed -> bits_select k c ->
  exists syms, bin2symbol (outbits (get_polynomial t) seed (N * k)) (2 ^ Z.of_nat k) f = Ok syms /\ length syms = N /\ in_range c syms /\
    (forall i, (i < N)%nat -> nth i syms 0 = symbol_value k f (outbits (get_polynomial t) seed (N * k)) i) /\
    tx_example t seed N k f c fs gray = Ok (outbits (get_polynomial t) seed (N * k), levels_of (levels64 c fs) (map (gmap c gray) syms)).
Proof.
  intros Hs Hk. destruct (seed_bv _ _ Hs) as (L & B & Nz). pose proof (select_pos _ _ Hk) as K. pose proof (select_not_pam3 _ _ Hk) as Nc.
  set (bs := outbits (get_polynomial t) seed (N * k)). destruct (bin2symbol_value k bs f K) as (syms & E & Ls & Hv & Hr).
  assert (Lb : (length bs / k = N)%nat) by (unfold bs; rewrite outbits_length; apply Nat.div_mul; lia). rewrite Lb in *.
  assert (R : in_range c syms) by (unfold in_range; rewrite Hk; apply Hr; apply outbits_bits).
  exists syms. split; auto. split; auto. split; auto. split; auto.
  unfold tx_example. rewrite gen_char by auto. cbn [bind fst]. fold bs. rewrite E. cbn [bind]. rewrite (gray_on c gray syms Nc R). cbn [bind].
  unfold mapping. cbn [bind vec data shape]. rewrite (np_take_map _ (B754_nan : f64)) by (rewrite levels_length; now apply gmap_range). reflexivity.
Qed.
Lemma iter_seed t seed n : prbs_seed t seed -> prbs_seed t (Nat.iter n (lfsr_step (get_polynomial t)) seed).
Proof.
  intros Hs. destruct (seed_bv _ _ Hs) as (L & B & Nz).
  assert (V : bv (prbs_value t) (Nat.iter n (lfsr_step (get_polynomial t)) seed)) by (apply (iter_bv (prbs_value t) (get_polynomial t) [] (value_gt1 t)); split; auto).
  split; [apply V|]. split; [apply V|]. apply (iter_nonzero _ _ _ (value_gt1 t) (prbs_cert t) seed); [split; auto|exact Nz].
Qed.
Lemma skip_outbits p s a b : skipn a (outbits p s (a + b)) = outbits p (Nat.iter a (lfsr_step p) s) b.
Proof. rewrite outbits_app, skipn_app, outbits_length, Nat.sub_diag. cbn [skipn]. rewrite skipn_all2 by (rewrite outbits_length; lia). reflexivity. Qed.
Lemma symbol_value_skip k f bs j i : symbol_value k f (skipn (j * k) bs) i = symbol_value k f bs (j + i).
Proof.
  unfold symbol_value. f_equal. apply map_ext. intros w. unfold symbol_bit. rewrite nth_skipn.
  replace (j * k + (i * k + (if bit_order_inv f then (k - 1 - w)%nat else w)))%nat with ((j + i) * k + (if bit_order_inv f then (k - 1 - w)%nat else w))%nat by lia. reflexivity.
Qed.
Lemma tx_tail t seed N k f c fs gray b y j : prbs_seed t seed -> bits_select k c -> tx_example t seed N k f c fs gray = Ok (b, y) -> (j <= N)%nat ->
  exists seed', prbs_seed t seed' /\ tx_example t seed' (N - j) k f c fs gray = Ok (skipn (j * k) b, skipn j y).
Proof.
  intros Hs Hk E Hj. destruct (tx_char t seed N k f c fs gray Hs Hk) as (syms & _ & Ls & _ & V & T). rewrite E in T. injection T as -> ->.
  set (p := get_polynomial t) in *. exists (Nat.iter (j * k) (lfsr_step p) seed). split; [now apply iter_seed|].
  destruct (tx_char t (Nat.iter (j * k) (lfsr_step p) seed) (N - j) k f c fs gray (iter_seed t seed _ Hs) Hk) as (syms' & _ & Ls' & _ & V' & T'). rewrite T'. fold p.
  assert (EB : outbits p (Nat.iter (j * k) (lfsr_step p) seed) ((N - j) * k) = skipn (j * k) (outbits p seed (N * k))).
  { replace (N * k)%nat with (j * k + (N - j) * k)%nat by (rewrite <- Nat.mul_add_distr_r; f_equal; lia). now rewrite skip_outbits. }
  rewrite EB. f_equal. f_equal. unfold levels_of. rewrite !skipn_map. do 2 f_equal.
  apply (nth_ext_def 0); [rewrite skipn_length; lia|]. intros i Hi. rewrite nth_skipn, V, V' by lia. fold p. rewrite EB. apply symbol_value_skip.
Qed.
(** *** The receiver *)
Lemma sent_index c fs i j r : c <> PAM3 -> (i < length (get_levels c))%nat -> (j < length (get_levels c))%nat -> let lv := levels64 c fs in
  nearest_sent lv (level lv i) r -> (rnd (distance r (level lv j)) <= rnd (distance r (level lv i)))%R -> j = i.
Proof.
  intros Nc Hi Hj lv (_ & H) D. destruct (Nat.eq_dec j i) as [|Q]; auto. exfalso. apply nearest_of_rnd in D.
  specialize (H (level lv j) (level_in c fs j Hj) ltac:(intros E; apply Q; now apply (level_inj c fs))). lra.
Qed.
Lemma levels_nonempty c fs : levels64 c fs <> [].
Proof. intros E. apply (f_equal (@length f64)) in E. rewrite levels_length in E. now destruct c. Qed.
Lemma received_any k f c fs gray rx : bits_select k c -> Forall fine rx ->
  exists r, length r = length rx /\ in_range c r /\
    slicer64 (levels64 c fs) rx = Ok (levels_of (levels64 c fs) r) /\
    received_bits k f c fs fs gray rx = symbol2bin (map (gmap c gray) r) (2 ^ Z.of_nat k) f /\
    forall q, length q = length rx -> in_range c q -> Forall2 (nearest_sent (levels64 c fs)) (levels_of (levels64 c fs) q) rx -> q = r.
Proof.
  intros Hk Fx. pose proof (select_not_pam3 _ _ Hk) as Nc. set (lv := levels64 c fs).
  destruct (slicer64_spec lv rx (levels_nonempty c fs) (levels_fine c fs Nc) Fx) as (idx & E & Li & S).
  assert (FI : Forall (fun i => (i < length (get_levels c))%nat) idx).
  { apply Forall_forall. intros x Hx. apply (In_nth _ _ 0%nat) in Hx. destruct Hx as (n & Hn & <-). destruct (S n ltac:(lia)) as (A & _). unfold lv in A. now rewrite levels_length in A. }
  exists (map Z.of_nat idx). assert (EL : levels_of lv (map Z.of_nat idx) = map (level lv) idx) by (unfold levels_of; rewrite map_map; apply map_ext; intros i; now rewrite Nat2Z.id).
  split; [now rewrite map_length|]. assert (IR : in_range c (map Z.of_nat idx)) by (unfold in_range; rewrite Forall_map; eapply Forall_impl; [|exact FI]; cbn; intros; lia).
  split; [exact IR|]. split; [now rewrite EL|]. split.
  - unfold received_bits. fold lv. rewrite E. cbn [bind]. unfold lv. rewrite demap_levels by auto. cbn [bind]. rewrite gray_off by auto. reflexivity.
  - intros q Lq Rq F. apply (nth_ext_def 0); [rewrite map_length; lia|]. intros n Hn. rewrite (map_nth_lt _ _ _ 0%nat) by lia.
    assert (Q : nearest_sent lv (level lv (Z.to_nat (nth n q 0))) (level rx n)).
    { clear - F Hn Lq. revert q rx F Lq Hn. induction n as [|n IH]; intros [|a q] [|x rx] F Lq Hn; cbn [length] in *; try lia; cbn [levels_of map] in F; inversion F; subst; [assumption|]. apply (IH q rx); auto; lia. }
    destruct (S n ltac:(lia)) as (A & B & _). cbv zeta in A, B. assert (A' : (nth n idx 0 < length (get_levels c))%nat) by (unfold lv in A; now rewrite levels_length in A).
    assert (Hq := Forall_nth_lt _ _ n 0 Rq ltac:(lia)). cbn beta in Hq. assert (Z2 : (Z.to_nat (nth n q 0%Z) < length (get_levels c))%nat) by lia.
    pose proof (sent_index c fs _ _ _ Nc Z2 A' Q (B _ ltac:(unfold lv; rewrite levels_length; exact Z2))) as X. rewrite X. lia.
Qed.
Lemma convertible_bits k n f bs : (1 <= k)%nat -> length bs = (n * k)%nat -> bits bs -> convertible k n f ->
  exists syms, bin2symbol bs (2 ^ Z.of_nat k) f = Ok syms /\ symbol2bin syms (2 ^ Z.of_nat k) f = Ok bs.
Proof.
  intros K L B C. destruct (roundtrip_bits k bs f K B) as (syms & E1 & E2).
  - rewrite L, Nat.div_mul by lia. exact C.
  - exists syms. split; auto. rewrite E2, L, Nat.div_mul by lia. now rewrite <- L, firstn_all.
Qed.
Lemma f2_length {A B} (R : A -> B -> Prop) u v : Forall2 R u v -> length u = length v.
Proof. intros F. induction F; cbn; lia. Qed.
Lemma nearest_fine lv ys rx : Forall2 (nearest_sent lv) ys rx -> Forall fine rx.
Proof. intros F. induction F as [|a b l m H F IH]; constructor; auto. apply H. Qed.
Lemma received_clean t seed N k f c fs gray b y rx : prbs_seed t seed -> bits_select k c -> tx_example t seed N k f c fs gray = Ok (b, y) ->
  Forall2 (nearest_sent (levels64 c fs)) y rx -> convertible k N f -> received_bits k f c fs fs gray rx = Ok b.
Proof.
  intros Hs Hk E F C. destruct (tx_char t seed N k f c fs gray Hs Hk) as (syms & B & Ls & R & _ & T). rewrite E in T. injection T as -> ->.
  destruct (received_any k f c fs gray rx Hk (nearest_fine _ _ _ F)) as (r & Lr & Rr & _ & E1 & U).
  assert (Lx : length rx = N) by (apply f2_length in F; unfold levels_of in F; rewrite !map_length in F; lia).
  assert (Q := U (map (gmap c gray) syms) ltac:(rewrite map_length; lia) (gmap_range _ _ _ R) F). rewrite E1, <- Q, gmap_invol by auto.
  destruct (convertible_bits k N f (outbits (get_polynomial t) seed (N * k)) (select_pos _ _ Hk) (outbits_length _ _ _) (outbits_bits _ _ _) C) as (s2 & A1 & A2). rewrite B in A1. injection A1 as ->. exact A2.
Qed.
Lemma genie_clean t seed N k f c fs gray b y j rx th : prbs_seed t seed -> bits_select k c -> tx_example t seed N k f c fs gray = Ok (b, y) -> (j < N)%nat ->
  Forall2 (nearest_sent (levels64 c fs)) (skipn j y) rx -> convertible k (N - j) f ->
  genie_checker t k f c fs fs gray rx th = Ok (th <=? 0, Z.of_nat ((N - j) * k), repeat false ((N - j) * k)).
Proof.
  intros Hs Hk E Hj F C. destruct (tx_tail _ _ _ _ _ _ _ _ _ _ j Hs Hk E ltac:(lia)) as (s' & Hs' & E').
  unfold genie_checker. rewrite (received_clean _ _ _ _ _ _ _ _ _ _ _ Hs' Hk E' F C). cbn [bind].
  destruct (tx_char t s' (N - j) k f c fs gray Hs' Hk) as (syms & _ & _ & _ & _ & T). rewrite E' in T. injection T as -> _.
  destruct (seed_bv _ _ Hs') as (L & B & Nz). pose proof (select_pos _ _ Hk). apply checker_clean; auto. apply Nat.mul_pos_pos; lia.
Qed.

(** *** Any decisions: the checker reports the positions of the wrong bits *)
Lemma inv_all_length r : length (inv_all r) = length r. Proof. apply map_length. Qed.
Lemma bit_test_bit s i : isbit (bit_test s i).
Proof. assert (B := lsb_bits_bits (S i) s). apply (Forall_nth_lt _ _ i 0) in B; [|rewrite map_length, seq_length; lia]. now rewrite nth_map_seq in B by lia. Qed.
Lemma converted k n f c l : bits_select k c -> length l = n -> convertible k n f ->
  exists b, symbol2bin l (2 ^ Z.of_nat k) f = Ok b /\ length b = (n * k)%nat /\ bits b.
Proof.
  intros Hk L C. destruct (select_cases k c Hk) as [(-> & _)|(-> & _)].
  - change (2 ^ Z.of_nat 1) with 2. rewrite symbol2bin_one. eexists. split; [reflexivity|].
    assert (B : bits (map (fun s => bit_test s 0) l)) by (apply Forall_forall; intros x Hx; apply in_map_iff in Hx; destruct Hx as (s & <- & _); apply bit_test_bit).
    split; [destruct (pn_inv f); cbn [when]; rewrite ?inv_all_length, map_length; lia|]. destruct (pn_inv f); cbn [when]; auto. now apply inv_all_bits.
  - assert (C' : (length l <> 1)%nat \/ (inv_msb f = false /\ inv_lsb f = false /\ bit_order_inv f = false)) by (destruct C as [C|[C|C]]; [discriminate|left; congruence|right; exact C]).
    rewrite symbol2bin_rows by (lia || exact C'). eexists. split; [reflexivity|].
    split.
    + rewrite (concat_length_const 2), map_length, L; auto. rewrite Forall_map. apply Forall_forall. intros s _. now rewrite unmod_row_length.
    + clear. induction l as [|s l IH]; cbn [map concat]; [constructor|]. apply Forall_app. split; auto. apply unmod_row_bits, lsb_bits_bits.
Qed.
Lemma wrong_length b got : length (wrong_at b got) = length b.
Proof. unfold wrong_at. now rewrite map_length, seq_length. Qed.
Lemma wrong_nth b got i : (i < length b)%nat -> nth i (wrong_at b got) false = negb (nth i got 0 =? nth i b 0).
Proof. intros H. unfold wrong_at. now rewrite nth_map_seq. Qed.
Lemma flipped_wrong b got : bits b -> bits got -> length got = length b -> flipped b (wrong_at b got) = got.
Proof.
  intros B G L. apply (nth_ext_def 0); [rewrite flipped_length by apply wrong_length; lia|]. intros i. rewrite flipped_length by apply wrong_length. intros Hi.
  rewrite flipped_nth by (auto; apply wrong_length). rewrite wrong_nth by auto.
  destruct (bits_nth b i B) as [-> | ->], (bits_nth got i G) as [-> | ->]; reflexivity.
Qed.
Lemma genie_counts t seed N k f c fs gray b y j rx th : prbs_seed t seed -> bits_select k c -> tx_example t seed N k f c fs gray = Ok (b, y) -> (j <= N)%nat ->
  length rx = (N - j)%nat -> Forall fine rx -> convertible k (N - j) f -> (2 ^ prbs_value t - 1 <= (N - j) * k)%nat ->
  exists got, received_bits k f c fs fs gray rx = Ok got /\ length got = ((N - j) * k)%nat /\ let e := wrong_at (skipn (j * k) b) got in
    (4 * Z.of_nat (n_errors (firstn (2 ^ prbs_value t - 1) e)) < 2 ^ Z.of_nat (prbs_value t) ->
     genie_checker t k f c fs fs gray rx th = Ok (th <=? Z.of_nat (n_errors e), Z.of_nat ((N - j) * k) - Z.of_nat (n_errors e), e)).
Proof.
  intros Hs Hk E Hj Lx Fx C HP. destruct (tx_tail _ _ _ _ _ _ _ _ _ _ j Hs Hk E Hj) as (s' & Hs' & E').
  destruct (tx_char t s' (N - j) k f c fs gray Hs' Hk) as (syms & _ & _ & _ & _ & T). rewrite E' in T. injection T as EB _.
  destruct (received_any k f c fs gray rx Hk Fx) as (r & Lr & Rr & _ & E1 & _).
  destruct (converted k (N - j) f c (map (gmap c gray) r) Hk ltac:(rewrite map_length; lia) C) as (got & G & Lg & Bg).
  exists got. rewrite E1. split; auto. split; auto. intros e He. unfold genie_checker. rewrite E1, G. cbn [bind].
  destruct (seed_bv _ _ Hs') as (L & B & Nz).
  assert (EF : got = flipped (outbits (get_polynomial t) s' ((N - j) * k)) e) by (unfold e; rewrite EB; symmetry; apply flipped_wrong; rewrite ?outbits_length; auto using outbits_bits).
  rewrite EF. apply checker_locks; auto. unfold e. rewrite wrong_length, EB. apply outbits_length.
Qed.
Lemma n_errors_wrong b got : n_errors (wrong_at b got) = hdist b got.
Proof.
  unfold wrong_at, n_errors, hdist. induction (seq 0 (length b)) as [|i l IH]; [reflexivity|]. cbn [map filter]. rewrite (Z.eqb_sym (nth i b 0)).
  destruct (nth i got 0 =? nth i b 0); cbn [negb count_occ length]; destruct (Bool.bool_dec _ true); cbn; congruence.
Qed.
Lemma genie_gray_counts t seed N k f c fs b y j q r rx th : prbs_seed t seed -> bits_select k c -> tx_example t seed N k f c fs true = Ok (b, y) -> (j <= N)%nat ->
  in_range c q -> in_range c r -> neighbours q r -> skipn j y = levels_of (levels64 c fs) q -> Forall2 (nearest_sent (levels64 c fs)) (levels_of (levels64 c fs) r) rx ->
  (2 ^ prbs_value t - 1 <= (N - j) * k)%nat -> 4 * Z.of_nat (hdist q r) < 2 ^ Z.of_nat (prbs_value t) ->
  exists e, genie_checker t k f c fs fs true rx th = Ok (th <=? Z.of_nat (hdist q r), Z.of_nat ((N - j) * k) - Z.of_nat (hdist q r), e) /\ n_errors e = hdist q r.
Proof.
  intros Hs Hk E Hj Rq Rr Nb Ey F HP HE. pose proof (select_not_pam3 _ _ Hk) as Nc.
  assert (Lx : length rx = length r) by (apply f2_length in F; unfold levels_of in F; rewrite map_length in F; lia).
  destruct (tx_tail _ _ _ _ _ _ _ _ _ _ j Hs Hk E Hj) as (s' & Hs' & E').
  destruct (tx_char t s' (N - j) k f c fs true Hs' Hk) as (syms & Bs & Ls & Rs & _ & T). rewrite E' in T. injection T as EB EY.
  assert (Eq : q = map (gmap c true) syms).
  { rewrite Ey in EY. assert (Lq : length q = length syms) by (apply (f_equal (@length f64)) in EY; unfold levels_of in EY; rewrite !map_length in EY; lia).
    apply (nth_ext_def 0); [rewrite map_length; lia|]. intros i Hi. assert (X := f_equal (fun l => level l i) EY). cbn beta in X.
    assert (Rg := gmap_range c true syms Rs). assert (H1 := Forall_nth_lt _ _ i 0 Rq Hi). assert (H2 := Forall_nth_lt _ _ i 0 Rg ltac:(rewrite map_length; lia)). cbn beta in H1, H2.
    rewrite !level_levels_of in X by (rewrite ?map_length; lia).
    apply (level_inj c fs _ _ Nc) in X; lia. }
  assert (Lq : length q = (N - j)%nat) by (rewrite Eq, map_length; lia). assert (Nb' := Nb). destruct Nb' as (Lr & _).
  destruct (genie_counts t seed N k f c fs true b y j rx th Hs Hk E Hj ltac:(lia) (nearest_fine _ _ _ F)) as (got & G & Lg & K); auto.
  { right. left. assert (2 ^ 2 <= 2 ^ prbs_value t)%nat by (apply Nat.pow_le_mono_r; [lia|apply (value_gt1 t)]). cbn [Nat.pow Nat.mul Nat.add] in H. destruct (select_cases k c Hk) as [(-> & _)|(-> & _)]; lia. }
  assert (CV : convertible k (N - j) f).
  { right. left. assert (2 ^ 2 <= 2 ^ prbs_value t)%nat by (apply Nat.pow_le_mono_r; [lia|apply (value_gt1 t)]). cbn [Nat.pow Nat.mul Nat.add] in H. destruct (select_cases k c Hk) as [(-> & _)|(-> & _)]; lia. }
  assert (N1 : (N - j <> 1)%nat).
  { assert (2 ^ 2 <= 2 ^ prbs_value t)%nat by (apply Nat.pow_le_mono_r; [lia|apply (value_gt1 t)]). cbn [Nat.pow Nat.mul Nat.add] in H. destruct (select_cases k c Hk) as [(-> & _)|(-> & _)]; lia. }
  assert (Nq : (length q <> 1)%nat) by (rewrite Lq; exact N1).
  destruct (gray_reach c q r f Nc Rq Rr Nb (or_introl Nq)) as (g & g' & b1 & b2 & D1 & D2 & S1 & S2 & HD).
  assert (B1 : b1 = skipn (j * k) b).
  { pose proof (gray_off c true q Nc Rq) as X. cbv iota in X. rewrite D1 in X. injection X as _ X'. rewrite X', Eq, gmap_invol in S1 by auto. rewrite Hk in S1.
    destruct (convertible_bits k (N - j) f (outbits (get_polynomial t) s' ((N - j) * k)) (select_pos _ _ Hk) (outbits_length _ _ _) (outbits_bits _ _ _) CV) as (s2 & A1 & A2). rewrite Bs in A1. injection A1 as <-. rewrite S1 in A2. rewrite EB. congruence. }
  assert (B2 : b2 = got).
  { destruct (received_any k f c fs true rx Hk (nearest_fine _ _ _ F)) as (r' & _ & Rr' & _ & E1 & U). rewrite <- (U r ltac:(lia) Rr F) in E1. rewrite G in E1.
    pose proof (gray_off c true r Nc Rr) as X. cbv iota in X. rewrite D2 in X. injection X as _ X'. rewrite <- X', <- Hk in E1. rewrite S2 in E1. congruence. }
  subst b1 b2. cbv zeta in K. assert (W : n_errors (wrong_at (skipn (j * k) b) got) = hdist q r) by (now rewrite n_errors_wrong, HD).
  exists (wrong_at (skipn (j * k) b) got). split; [|exact W]. rewrite <- W. apply K.
  assert (X := n_errors_app (firstn (2 ^ prbs_value t - 1) (wrong_at (skipn (j * k) b) got)) (skipn (2 ^ prbs_value t - 1) (wrong_at (skipn (j * k) b) got))). rewrite firstn_skipn in X. lia.
Qed.

(** *** README: without full_scale in the demapping *)
Lemma checker_any t data th : bits data -> data <> [] -> exists u e, prbs_seed t u /\
  prbs_checker t data false th None = Ok (th <=? Z.of_nat (n_errors e), Z.of_nat (length data) - Z.of_nat (n_errors e), e) /\ length e = length data /\
  forall i, (i < length data)%nat -> nth i e false = negb (nth i data 0 =? nth i (outbits (get_polynomial t) u (length data)) 0).
Proof.
  intros B Nd. assert (HP0 := maxlen_pos _ (value_gt1 t)). set (P := (2 ^ prbs_value t - 1)%nat) in *. set (p := get_polynomial t). destruct (ones_seed t) as (L1 & B1 & N1).
  destruct (lock_binary_spec (outbits p (repeat 1 (prbs_value t)) P) data) as (s1 & xc & E & _ & _ & _ & _).
  { intros Q. apply (f_equal (@length Z)) in Q. rewrite outbits_length in Q. cbn [length] in Q. lia. }
  { exact Nd. }
  assert (R := rotation_seed t (repeat 1 (prbs_value t)) s1 L1 B1). cbv zeta in R. fold P p in R. rewrite R in E.
  set (u := Nat.iter s1 (lfsr_step p) (repeat 1 (prbs_value t))) in *. assert (Hu : prbs_seed t u) by (apply iter_seed; split; auto).
  destruct (seed_bv _ _ Hu) as (Lu & Bu & Nu).
  destruct (not_equal_spec data (outbits p u (length data)) ltac:(now rewrite outbits_length)) as (e & Ee & Le & He).
  exists u, e. split; auto. split; [|split; auto]. unfold prbs_checker. rewrite repeat_length, gen_ones. cbn [bind fst negb]. fold p P. rewrite E. cbn [bind fst].
  assert (T := tile_period t u (length data) Lu Bu). cbv zeta in T. fold p P in T. rewrite T, Ee. reflexivity.
Qed.
Lemma sum_pairs (g : nat -> Z) n : sumZ (map g (seq 0 (2 * n))) = sumZ (map (fun i => g (2 * i)%nat + g (2 * i + 1)%nat) (seq 0 n)).
Proof.
  induction n as [|n IH]; auto. replace (2 * S n)%nat with (2 * n + 2)%nat by lia. rewrite seq_app, map_app, sumZ_app, IH. rewrite (seq_S n), map_app, sumZ_app. f_equal.
  change (seq (0 + 2 * n) 2) with [2 * n; S (2 * n)]%nat. change (seq (0 + n) 1) with [n]. replace (S (2 * n)) with (2 * n + 1)%nat by lia. cbn [map Nat.add]. generalize (g (2 * n)%nat) (g (2 * n + 1)%nat). intros a b. cbn. lia.
Qed.
Lemma sum_doubled (g : nat -> Z) h : (forall j, g (j + (2 * h + 1))%nat = g j) -> sumZ (map (fun i => g (2 * i)%nat) (seq 0 (2 * h + 1))) = sumZ (map g (seq 0 (2 * h + 1))).
Proof.
  intros Per. replace (seq 0 (2 * h + 1)) with (seq 0 h ++ seq h 1 ++ seq (h + 1) h) at 1 by (rewrite <- !seq_app; f_equal; lia).
  rewrite !map_app, !sumZ_app. rewrite seq_app, map_app, sumZ_app, sum_pairs, sumZ_map_add.
  rewrite (seq_offset (h + 1)), map_map. rewrite (sumZ_map_ext (fun x => g (2 * (h + 1 + x))%nat) (fun x => g (2 * x + 1)%nat)).
  - cbn [seq map Nat.add]. lia.
  - intros x _. rewrite <- (Per (2 * x + 1)%nat). f_equal. lia.
Qed.

Section Reference.
  Context (t : prbs_type) (u : list Z) (Hu : prbs_seed t u).
  Let p := get_polynomial t.
  Let P := (2 ^ prbs_value t - 1)%nat.
  Definition ubit (i : nat) : Z := lfsr_bit p (Nat.iter i (lfsr_step p) u).
  Lemma ubit_nth i n : (i < n)%nat -> nth i (outbits p u n) 0 = ubit i.
  Proof. intros H. now apply outbits_nth. Qed.
  Lemma ubit_isbit i : isbit (ubit i).
  Proof. rewrite <- (ubit_nth i (S i)) by lia. apply bits_nth, outbits_bits. Qed.
  Lemma ubit_period i : ubit (i + P) = ubit i.
  Proof. unfold ubit. rewrite iter_add. unfold P, p. destruct (seed_bv _ _ Hu) as (L & B & _). now rewrite prbs_full_period. Qed.
  Lemma ubit_mod i : ubit (i mod P) = ubit i.
  Proof.
    assert (HP := maxlen_pos _ (value_gt1 t)). fold P in HP. rewrite (Nat.div_mod i P) at 2 by lia. generalize (i mod P)%nat (i / P)%nat. intros r d. induction d as [|d IH]; [f_equal; lia|].
    rewrite IH, <- ubit_period. f_equal. lia.
  Qed.
  Lemma odd_period : exists h, P = (2 * h + 1)%nat.
  Proof.
    assert (V := value_gt1 t). exists (2 ^ (prbs_value t - 1) - 1)%nat. unfold P. replace (prbs_value t) with (S (prbs_value t - 1)) at 1 by lia. rewrite Nat.pow_succ_r'.
    assert (2 ^ (prbs_value t - 1) <> 0)%nat by (apply Nat.pow_nonzero; lia). lia.
  Qed.
  Lemma sum_even_bits : sumZ (map (fun i => ubit (2 * i)) (seq 0 P)) = 2 ^ (Z.of_nat (prbs_value t) - 1).
  Proof.
    destruct odd_period as (h & Hh). rewrite Hh, sum_doubled; [|intros j; rewrite <- Hh; apply ubit_period]. rewrite <- Hh.
    destruct (seed_bv _ _ Hu) as (L & B & Nz). rewrite <- (sum_period t u L B Nz). reflexivity.
  Qed.
  Lemma sum_even_pairs : sumZ (map (fun i => nrz (ubit (2 * i)) * nrz (ubit (2 * i + 1))) (seq 0 P)) = -1.
  Proof.
    destruct odd_period as (h & Hh). assert (V := value_gt1 t). assert (HP3 : (1 < P)%nat).
    { unfold P. assert (2 ^ 2 <= 2 ^ prbs_value t)%nat by (apply Nat.pow_le_mono_r; [lia|exact V]). cbn [Nat.pow Nat.mul Nat.add] in H. lia. }
    rewrite Hh, (sum_doubled (fun j => nrz (ubit j) * nrz (ubit (j + 1)))); [|intros j; rewrite <- Hh; replace (j + P + 1)%nat with ((j + 1) + P)%nat by lia; now rewrite !ubit_period]. rewrite <- Hh.
    destruct (seed_bv _ _ Hu) as (L & B & Nz). destruct (autocorr_two_valued t u 1 L B Nz HP3) as (out & sd & E & A). rewrite gen_char in E by auto. injection E as <- _. cbn [Nat.eqb] in A. rewrite <- A.
    unfold autocorr. rewrite outbits_length. fold P p. apply sumZ_map_ext. intros i Hi. apply in_seq in Hi. rewrite !ubit_nth by (try apply Nat.mod_upper_bound; lia). now rewrite ubit_mod.
  Qed.
End Reference.
(** What the receiver makes of the symbol pairs. *)
Definition shrunk_pair (gray : bool) (s : Z) : list Z := if gray then (if s <? 2 then [1; 0] else [1; 1]) else (if s <? 2 then [1; 0] else [0; 1]).
Lemma received_shrunk gray q rx : in_range PAM4 q -> Forall2 (nearest_sent (levels64 PAM4 true)) (levels_of (levels64 PAM4 true) q) rx ->
  received_bits 2 noflags PAM4 true false gray rx = Ok (concat (map (shrunk_pair gray) q)).
Proof.
  intros Rq F. assert (Hk : bits_select 2 PAM4) by reflexivity.
  assert (Lx : length q = length rx) by (apply f2_length in F; unfold levels_of in F; rewrite map_length in F; lia).
  destruct (received_any 2 noflags PAM4 true gray rx Hk (nearest_fine _ _ _ F)) as (r & Lr & Rr & ES & _ & U). rewrite <- (U q Lx Rq F) in ES.
  unfold received_bits. rewrite ES. cbn [bind]. unfold levels_of. rewrite <- (map_map Z.to_nat (level (levels64 PAM4 true))).
  rewrite demap_shrunk by (rewrite Forall_map; eapply Forall_impl; [|exact Rq]; cbn; intros; lia). cbn [bind].
  assert (RS : in_range PAM4 (map Z.of_nat (map shrunk (map Z.to_nat q)))).
  { unfold in_range. rewrite !Forall_map. apply Forall_forall. intros i _. unfold shrunk. destruct (_ <? _)%nat; split; vm_compute; congruence. }
  rewrite gray_off by (discriminate || exact RS). cbn [bind vec data].
  change 4 with (2 ^ Z.of_nat 2). rewrite symbol2bin_rows by (lia || (right; auto)). f_equal. f_equal. rewrite !map_map. apply map_ext_in. intros i Hi. unfold in_range in Rq. rewrite Forall_forall in Rq. specialize (Rq i Hi). apply four in Rq.
  destruct gray; destruct Rq as [->|[->|[->| ->]]]; reflexivity.
Qed.
Lemma pairs_nth (f : Z -> list Z) q i : (forall s, length (f s) = 2%nat) -> (i < length q)%nat ->
  nth (2 * i) (concat (map f q)) 0 = nth 0 (f (nth i q 0)) 0 /\ nth (2 * i + 1) (concat (map f q)) 0 = nth 1 (f (nth i q 0)) 0.
Proof.
  intros H2. revert i. induction q as [|s q IH]; intros i Hi; [cbn in Hi; lia|]. cbn [map concat]. destruct i as [|i].
  - cbn [Nat.mul Nat.add]. rewrite !app_nth1 by (rewrite H2; lia). auto.
  - rewrite !app_nth2 by (rewrite H2; lia). rewrite H2. replace (2 * S i - 2)%nat with (2 * i)%nat by lia. replace (2 * S i + 1 - 2)%nat with (2 * i + 1)%nat by lia. cbn [nth]. apply IH. cbn in Hi. lia.
Qed.
Lemma ok_pair {A B} (a a' : A) (b b' : B) : Ok (a, b) = Ok (a', b') -> a = a' /\ b = b'.
Proof. intros [= -> ->]. auto. Qed.
Lemma genie_readme t seed N gray b y rx th : prbs_seed t seed -> tx_example t seed N 2 noflags PAM4 true gray = Ok (b, y) ->
  Forall2 (nearest_sent (levels64 PAM4 true)) y rx -> (2 ^ prbs_value t - 1 <= N)%nat ->
  exists e, genie_checker t 2 noflags PAM4 true false gray rx th = Ok (th <=? Z.of_nat (n_errors e), Z.of_nat (2 * N) - Z.of_nat (n_errors e), e) /\
    2 ^ (Z.of_nat (prbs_value t) - 1) - 1 <= Z.of_nat (n_errors (firstn (2 * (2 ^ prbs_value t - 1)) e)).
Proof.
  intros Hs E F HP. assert (Hk : bits_select 2 PAM4) by reflexivity.
  destruct (tx_char t seed N 2 noflags PAM4 true gray Hs Hk) as (syms & _ & Ls & R & _ & T). rewrite E in T. apply ok_pair in T. destruct T as (-> & ->).
  set (q := map (gmap PAM4 gray) syms) in *. assert (Rq : in_range PAM4 q) by now apply gmap_range. assert (Lq : length q = N) by (unfold q; now rewrite map_length).
  unfold genie_checker. rewrite (received_shrunk gray q rx Rq F). cbn [bind].
  assert (W : forall s, length (shrunk_pair gray s) = 2%nat) by (intros s; unfold shrunk_pair; destruct gray, (s <? 2); reflexivity).
  set (d := concat (map (shrunk_pair gray) q)). assert (Ld : length d = (2 * N)%nat).
  { unfold d. rewrite (concat_length_const 2); [rewrite map_length; lia|]. rewrite Forall_map. apply Forall_forall. intros s _. apply W. }
  assert (HP0 := maxlen_pos _ (value_gt1 t)). set (P := (2 ^ prbs_value t - 1)%nat) in *.
  assert (Bd : bits d).
  { unfold d. clear. induction q as [|s q IH]; cbn [map concat]; [constructor|]. apply Forall_app. split; auto. unfold shrunk_pair. destruct gray, (s <? 2); (repeat (apply Forall_cons; [unfold isbit; lia|])); apply Forall_nil. }
  destruct (checker_any t d th Bd) as (u & e & Hu & Ec & Le & He). { intros Q. rewrite Q in Ld. cbn in Ld. lia. }
  exists e. split; [rewrite Ec, Ld; reflexivity|]. rewrite <- n_errors_sum by lia. rewrite sum_pairs.
  assert (X : forall i, (i < P)%nat -> let g := fun j => if nth j e false then 1 else 0 in
     (if gray then 1 - ubit t u (2 * i) else 0) <= g (2 * i)%nat + g (2 * i + 1)%nat /\ (if gray then 0 else 1 + nrz (ubit t u (2 * i)) * nrz (ubit t u (2 * i + 1))) <= 2 * (g (2 * i)%nat + g (2 * i + 1)%nat)).
  { intros i Hi g. unfold g. rewrite !He by lia. rewrite !ubit_nth by lia. destruct (pairs_nth (shrunk_pair gray) q i W ltac:(lia)) as (A1 & A2). fold d in A1, A2. rewrite A1, A2.
    unfold nrz. destruct (ubit_isbit t u (2 * i)) as [-> | ->], (ubit_isbit t u (2 * i + 1)) as [-> | ->]; unfold shrunk_pair; destruct gray, (nth i q 0 <? 2); cbn; lia. }
  cbv zeta in X. set (g := fun j => if nth j e false then 1 else 0) in *.
  assert (PW : Z.of_nat P = 2 * 2 ^ (Z.of_nat (prbs_value t) - 1) - 1).
  { unfold P. rewrite maxlen_Z by apply value_gt1. assert (V := value_gt1 t). replace (Z.of_nat (prbs_value t)) with (1 + (Z.of_nat (prbs_value t) - 1)) at 1 by lia. rewrite Z.pow_add_r by lia. lia. }
  destruct gray.
  - assert (M : sumZ (map (fun i => 1 - ubit t u (2 * i)) (seq 0 P)) <= sumZ (map (fun i => g (2 * i)%nat + g (2 * i + 1)%nat) (seq 0 P))) by (apply sumZ_le; intros i Hi; apply in_seq in Hi; apply X; lia).
    rewrite (sumZ_map_ext _ (fun i => 1 + (-1) * ubit t u (2 * i))) in M by (intros; lia). rewrite sumZ_map_add, sumZ_map_const, sumZ_map_mul, seq_length in M.
    assert (Y := sum_even_bits t u Hu). fold P in Y. rewrite Y in M. clear - M PW. unfold g in *. lia.
  - assert (M : sumZ (map (fun i => 1 + nrz (ubit t u (2 * i)) * nrz (ubit t u (2 * i + 1))) (seq 0 P)) <= sumZ (map (fun i => 2 * (g (2 * i)%nat + g (2 * i + 1)%nat)) (seq 0 P))) by (apply sumZ_le; intros i Hi; apply in_seq in Hi; apply X; lia).
    rewrite sumZ_map_add, sumZ_map_const, seq_length, sumZ_map_mul in M. assert (Y := sum_even_pairs t u Hu). fold P in Y. rewrite Y in M. unfold g in M. lia.
Qed.
(** *** Margins *)
Lemma within_nearest c fs i r : c <> PAM3 -> (i < length (get_levels c))%nat -> let lv := levels64 c fs in within_half lv (level lv i) r -> nearest_sent lv (level lv i) r.
Proof.
  intros Nc Hi lv (Fr & H).
  assert (T50 : two (-50) = (/ 1125899906842624)%R) by reflexivity. assert (T52 : two (-52) = (/ 4503599627370496)%R) by reflexivity. rewrite T50 in H.
  assert (B : (Rabs (val r - val (level lv i)) <= 1)%R /\ (Rabs (val (level lv i)) <= 3)%R /\ forall j, (j < length (get_levels c))%nat -> j <> i -> ((2 + / 4503599627370496) * ((1 - / 1125899906842624) * ((val (level lv 1) - val (level lv 0)) / 2)) < Rabs (val (level lv j) - val (level lv i)))%R).
  { unfold lv in *. rewrite levels_ints in * by auto. split; [|split].
    - eapply Rle_trans; [exact H|]. destruct c, fs; try congruence; unfold level, ints64, level_ints; cbn [get_levels map nth fst snd]; ovals; lra.
    - destruct c, fs; try congruence; cbn [get_levels length] in Hi; level_cases i; try lia; unfold level, ints64, level_ints; cbn [get_levels map nth fst snd]; ovals; apply Rabs_le; lra.
    - intros j Hj Q. clear H. destruct c, fs; try congruence; cbn [get_levels length] in Hi, Hj; level_cases i; try lia; level_cases j; try lia; unfold level, ints64, level_ints; cbn [get_levels map nth fst snd]; ovals; unfold Rabs; destruct (Rcase_abs _); lra. }
  destruct B as (B1 & B2 & B3). split.
  - split; auto. eapply Rle_trans; [|apply (bpow_le radix2 2 1022); lia]. change (bpow radix2 2) with 4%R.
    replace (val r) with ((val r - val (level lv i)) + val (level lv i))%R by ring. eapply Rle_trans; [apply Rabs_triang|]. lra.
  - intros l Hl Q. apply (In_nth _ _ B754_nan) in Hl. destruct Hl as (j & Hj & El). change (level lv j = l) in El. subst l. unfold lv in Hj. rewrite levels_length in Hj.
    assert (J : j <> i) by (intros ->; now apply Q). specialize (B3 j Hj J). rewrite T52. unfold distance.
    assert (TR : (Rabs (val (level lv j) - val (level lv i)) <= Rabs (val r - val (level lv j)) + Rabs (val r - val (level lv i)))%R).
    { replace (val (level lv j) - val (level lv i))%R with (- (val r - val (level lv j)) + (val r - val (level lv i)))%R by ring. eapply Rle_trans; [apply Rabs_triang|]. rewrite Rabs_Ropp. lra. }
    assert (P0 := Rabs_pos (val r - val (level lv i))). revert H B3 TR P0. generalize (Rabs (val r - val (level lv i))) (Rabs (val (level lv j) - val (level lv i))) (Rabs (val r - val (level lv j))) ((1 - / 1125899906842624) * ((val (level lv 1) - val (level lv 0)) / 2))%R. clear. intros a b d w H1 H2 H3 H4. assert ((/ 4503599627370496) * a <= (/ 4503599627370496) * w)%R by (apply Rmult_le_compat_l; lra). lra.
Qed.

(** *** The full-scale levels are the exact ones rounded *)
Lemma sqrt5 : (22360679774997896964 / 10000000000000000000 <= sqrt 5 <= 22360679774997896965 / 10000000000000000000)%R.
Proof. split; [apply Rsqr_incr_0_var; [rewrite Rsqr_sqrt by lra; unfold Rsqr; lra|apply sqrt_pos]|apply Rsqr_incr_0_var; [rewrite Rsqr_sqrt by lra; unfold Rsqr; lra|lra]]. Qed.
Lemma sqrt_half : (7071067811865475244 / 10000000000000000000 <= sqrt (1 / 2) <= 7071067811865475245 / 10000000000000000000)%R.
Proof. split; [apply Rsqr_incr_0_var; [rewrite Rsqr_sqrt by lra; unfold Rsqr; lra|apply sqrt_pos]|apply Rsqr_incr_0_var; [rewrite Rsqr_sqrt by lra; unfold Rsqr; lra|lra]]. Qed.
Lemma over a z s w lo hi : (0 < lo <= s)%R -> (s <= hi)%R -> (0 <= w)%R -> ((a - w) * hi <= z)%R -> ((a - w) * lo <= z)%R -> (z <= (a + w) * lo)%R -> (z <= (a + w) * hi)%R -> (Rabs (a - z / s) <= w)%R.
Proof.
  intros H1 H2 W A A' B B'. assert (S0 : (0 < s)%R) by lra.
  assert (LIN : forall u, (u * hi <= z -> u * lo <= z -> u * s <= z)%R).
  { intros u U V. destruct (Rle_dec 0 u) as [P|P]; [apply Rle_trans with (u * hi)%R; auto; apply Rmult_le_compat_l; lra|]. apply Rle_trans with (u * lo)%R; auto. assert (0 <= (- u) * (s - lo))%R by (apply Rmult_le_pos; lra). lra. }
  assert (LIN2 : forall u, (z <= u * hi -> z <= u * lo -> z <= u * s)%R).
  { intros u U V. destruct (Rle_dec 0 u) as [P|P]; [apply Rle_trans with (u * lo)%R; auto; apply Rmult_le_compat_l; lra|]. apply Rle_trans with (u * hi)%R; auto. assert (0 <= (- u) * (hi - s))%R by (apply Rmult_le_pos; lra). lra. }
  specialize (LIN _ A A'). specialize (LIN2 _ B' B).
  assert (E : (z = z / s * s)%R) by (field; lra). rewrite E in LIN, LIN2. apply Rabs_le. split; [apply Rmult_le_reg_r in LIN2|apply Rmult_le_reg_r in LIN]; lra.
Qed.
Lemma levels_near c i : c <> PAM3 -> (i < length (get_levels c))%nat ->
  (Rabs (val (level (levels64 c true) i) - IZR (nth i (get_levels c) 0%Z) / rms (get_levels c)) <= two (-52))%R.
Proof.
  intros Nc Hi. rewrite levels_ints by auto. change (two (-52)) with (/ 4503599627370496)%R.
  assert (E : rms (get_levels c) = match c with OOK => sqrt (1 / 2) | NRZ => 1%R | _ => sqrt 5 end).
  { unfold rms. destruct c; try congruence; cbn [get_levels map fold_right length]; rewrite INR_IZR_INZ; cbn [Z.of_nat Pos.of_succ_nat Pos.succ];
    first [f_equal; lra|transitivity (sqrt 1); [f_equal; lra|apply sqrt_1]]. }
  rewrite E.
  destruct c; try congruence.
  - cbn [get_levels length] in Hi. level_cases i; try lia; unfold level, ints64, level_ints; cbn [get_levels map nth fst snd]; ovals; (eapply (over _ _ _ _ 1 1); lra).
  - destruct sqrt_half as (A & B).
    cbn [get_levels length] in Hi. level_cases i; try lia; unfold level, ints64, level_ints; cbn [get_levels map nth fst snd]; ovals; (eapply over; [split; [|exact A]|exact B|..]; lra).
  - destruct sqrt5 as (A & B).
    cbn [get_levels length] in Hi. level_cases i; try lia; unfold level, ints64, level_ints; cbn [get_levels map nth fst snd]; ovals; (eapply over; [split; [|exact A]|exact B|..]; lra).
Qed.
Lemma gmap_reflected c gray i : 0 <= i < Z.of_nat (length (get_levels c)) -> c <> PAM3 -> gmap c gray i = (if gray then reflected i else i).
Proof.
  intros H Nc. destruct c; try congruence.
  1,2: cbn [gmap]; destruct gray; auto; cbn [get_levels length] in H; assert (i = 0 \/ i = 1) as [-> | ->] by lia; reflexivity.
  apply four in H. destruct gray; auto. destruct H as [->|[->|[->| ->]]]; reflexivity.
Qed.
