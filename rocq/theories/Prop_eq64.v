(** C76: the decision feedback equaliser in double precision. *)
From Coq Require Import ZArith Reals Lra Lia Psatz Permutation.
From Flocq Require Import Core BinarySingleNaN.
From Verif Require Import Py B_list M_aux M_slicer S_filter P_eq M_f64 S_f64 P_f64 Prop_f64 M_eq64 S_eq64 P_eq64.
Import List.
Open Scope R_scope.

(** A dot product in any order, with or without fused multiplications: every result is finite and within n * 2^-52 of the
    sum of the magnitudes from the exact value. *)
Theorem C76_dot : forall (u v : list f64) (r : f64), length u = length v -> dot_value (combine u v) r -> Forall finite u -> Forall finite v -> (Z.of_nat (length u) <= 2 ^ 50)%Z ->
  let terms := map (fun i => val (level u i) * val (level v i)) (seq 0 (length u)) in let n := INR (length u) in
  total (map Rabs terms) <= two 1000 ->
  finite r /\ Rabs (val r - total terms) <= n * two (-52) * total (map Rabs terms) + n * two (-1074).
Proof.
  intros u v r L D U V F terms n W. assert (E : map product (combine u v) = terms) by (apply combine_products; auto).
  assert (Lc : length (combine u v) = length u) by (rewrite combine_length; lia).
  destruct (dot_bound (combine u v) r D) as [A B]; [now apply numbers_combine|rewrite Lc; lia|unfold heft; rewrite E; exact W|]. split; auto.
  unfold exact, heft in B. rewrite E, Lc in B. eapply Rle_trans; [exact B|]. apply err_simple; auto. rewrite <- E. apply heft_pos.
Qed.
Print Assumptions C76_dot.
(** Two such orders. *)
Definition dot_left (k : nat) (u v : list f64) : f64 := fold_left (fun a p => add64 a (mul64 (fst p) (snd p))) (combine u v) zero64.
Definition dot_right (k : nat) (u v : list f64) : f64 := fold_right (fun p a => fma64 (fst p) (snd p) a) zero64 (combine u v).
Lemma dot_left_ok : any_order dot_left.
Proof.
  intros k u v _. unfold dot_left. generalize (combine u v). clear. intros l.
  assert (H : forall l pre a, dot_value pre a -> dot_value (pre ++ l) (fold_left (fun a p => add64 a (mul64 (fst p) (snd p))) l a)).
  { clear. induction l as [|p l IH]; intros pre a D; [now rewrite app_nil_r|]. cbn [fold_left]. replace (pre ++ p :: l) with ((pre ++ [p]) ++ l) by (rewrite <- app_assoc; reflexivity).
    apply IH. apply dot_sum with pre [p]; auto. destruct p as [x y]. apply dot_product. }
  apply (H l [] zero64). apply dot_none.
Qed.
Lemma dot_right_ok : any_order dot_right.
Proof.
  intros k u v _. unfold dot_right. generalize (combine u v). clear. induction l as [|[x y] l IH]; cbn [fold_right]; [apply dot_none|]. cbn [fst snd]. now apply dot_fused with l.
Qed.
Definition ten : list f64 := map (fun m => of_int m (-52)) [3602879701896397; 5404319552844595; -18014398509481984]%Z.
Example C76_dot_case : any_order dot_left /\ any_order dot_right /\ Forall finite ten /\
  B2SF (dot_left 0 ten [of_int 1 0; of_int 1 0; of_int 1 0]) = B2SF (of_int (-2) 0) /\
  B2SF (dot_right 0 ten [of_int 1 0; of_int 1 0; of_int 1 0]) = B2SF (of_int (-9007199254740991) (-52)).
Proof. split; [apply dot_left_ok|]. split; [apply dot_right_ok|]. split; [repeat constructor|]. split; vm_compute; reflexivity. Qed.

Definition weight_bounded (ffe dfe mx md : list f64) (osr phase : Z) (x levels : list f64) : Prop :=
  forall n sout, (n < length x)%nat -> length sout = length x -> (forall m, (m < length x)%nat -> In (level sout m) levels) -> weight ffe dfe mx md osr phase x sout n <= two 1000.
(** Whatever the order of the sums, every slicer input is close to the exact one for the decisions that were really taken, and every decision
    is a nearest level up to a relative 2^-52; the returned memory contains these decisions. *)
Theorem C76_equation : forall dot (x ffe dfe levels : list f64) (osr phase : Z) (zf zd : option (list f64)),
  any_order dot -> x <> [] -> ffe <> [] -> dfe <> [] -> levels <> [] -> (0 < osr)%Z ->
  (forall z, zf = Some z -> length z = length ffe /\ Forall finite z) -> (forall z, zd = Some z -> length z = length dfe /\ Forall finite z) ->
  Forall finite x -> Forall finite ffe -> Forall finite dfe -> Forall fine levels -> (Z.of_nat (length ffe + length dfe) <= 2 ^ 50)%Z ->
  let mx := match zf with None => [] | Some z => rev z end in
  let md := match zd with None => repeat zero64 (length dfe) | Some z => z end in
  weight_bounded ffe dfe mx md osr phase x levels ->
  exists sin zo sout,
    ffe_dfe64 dot x ffe dfe levels osr phase zf zd = Ok (sin, zo, firstn (length dfe) (fed_back osr phase md sout (length x))) /\
    length sin = length x /\ length sout = length x /\
    forall n, (n < length x)%nat ->
      finite (level sin n) /\
      Rabs (val (level sin n) - exact_input ffe dfe mx md osr phase x sout n) <= rounding (length ffe + length dfe) (weight ffe dfe mx md osr phase x sout n) /\
      exists i, (i < length levels)%nat /\ level sout n = level levels i /\
        forall j, (j < length levels)%nat -> distance (level sin n) (level levels i) <= (1 + two (-52)) * distance (level sin n) (level levels j).
Proof.
  intros dot x ffe dfe levels osr phase zf zd Dot Nx Nf Nd NL Ho Hzf Hzd Fx Ff Fd FL Few mx md W.
  destruct (call64_spec dot x ffe dfe levels osr phase zf zd Dot Nx Nf Nd NL Ho (fun z E => proj1 (Hzf z E)) (fun z E => proj1 (Hzd z E)) Fx Ff Fd FL (fun z E => proj2 (Hzf z E)) (fun z E => proj2 (Hzd z E)) Few) as (sin & zo & C & L & Q).
  cbv zeta in C, Q. change (past_ffe64 zf) with mx in Q. change (past_dfe64 (length dfe) zd) with md in C, Q. exists sin, zo, (map (decided levels) sin). split; [exact C|]. split; auto. split; [now rewrite map_length|].
  assert (Inl : forall m, (m < length x)%nat -> In (level (map (decided levels) sin) m) levels).
  { intros m Hm. rewrite decided_nth by lia. apply decided_in; auto. }
  intros n Hn. destruct (Q n Hn) as [F B]; [apply W; auto; now rewrite map_length|]. split; [apply F|]. split; [exact B|].
  destruct (decided_near levels (level sin n) NL FL F) as (i & Hi & E & D). exists i. split; auto. split; auto. rewrite decided_nth by lia. exact E.
Qed.
Print Assumptions C76_equation.

(** If the exact equaliser decides clearly at every sample, the doubles take the same decisions for ever: rounding
    errors do not accumulate, whatever the length of the signal and the order of the sums. *)
Theorem C76_decisions : forall dot (x ffe dfe levels : list f64) (osr phase : Z) (zf zd : option (list f64)) (sout : list f64),
  any_order dot -> x <> [] -> ffe <> [] -> dfe <> [] -> (0 < osr)%Z ->
  (forall z, zf = Some z -> length z = length ffe /\ Forall finite z) -> (forall z, zd = Some z -> length z = length dfe /\ Forall finite z) ->
  Forall finite x -> Forall finite ffe -> Forall finite dfe -> Forall fine levels -> (Z.of_nat (length ffe + length dfe) <= 2 ^ 50)%Z ->
  length sout = length x ->
  let mx := match zf with None => [] | Some z => rev z end in
  let md := match zd with None => repeat zero64 (length dfe) | Some z => z end in
  let error n := rounding (length ffe + length dfe) (weight ffe dfe mx md osr phase x sout n) in
  (forall n, (n < length x)%nat -> weight ffe dfe mx md osr phase x sout n <= two 1000 /\
     exists i, level sout n = level levels i /\ clear levels (exact_input ffe dfe mx md osr phase x sout n) (error n) i) ->
  exists sin zo,
    ffe_dfe64 dot x ffe dfe levels osr phase zf zd = Ok (sin, zo, firstn (length dfe) (fed_back osr phase md sout (length x))) /\
    slicer64 levels sin = Ok sout /\
    forall n, (n < length x)%nat -> finite (level sin n) /\ Rabs (val (level sin n) - exact_input ffe dfe mx md osr phase x sout n) <= error n.
Proof.
  intros dot x ffe dfe levels osr phase zf zd sout Dot Nx Nf Nd Ho Hzf Hzd Fx Ff Fd FL Few Ls mx md error H.
  assert (HX : (0 < length x)%nat) by (destruct x; [congruence|cbn; lia]).
  assert (NL : levels <> []). { destruct (H 0%nat HX) as (_ & i & _ & Hi & _). destruct levels; [cbn in Hi; lia|discriminate]. }
  destruct (call64_spec dot x ffe dfe levels osr phase zf zd Dot Nx Nf Nd NL Ho (fun z E => proj1 (Hzf z E)) (fun z E => proj1 (Hzd z E)) Fx Ff Fd FL (fun z E => proj2 (Hzf z E)) (fun z E => proj2 (Hzd z E)) Few) as (sin & zo & C & L & Q).
  cbv zeta in C, Q. change (past_ffe64 zf) with mx in Q. change (past_dfe64 (length dfe) zd) with md in C, Q.
  assert (K : forall n, (n < length x)%nat -> level (map (decided levels) sin) n = level sout n /\ fine (level sin n) /\ Rabs (val (level sin n) - exact_input ffe dfe mx md osr phase x sout n) <= error n).
  { induction n as [n IH] using (well_founded_induction lt_wf). intros Hn.
    assert (FB : fed_back osr phase md (map (decided levels) sin) n = fed_back osr phase md sout n) by (apply fed_back_ext; intros i Hi; apply IH; lia).
    specialize (Q n Hn). unfold weight, exact_input, echoes in Q. rewrite FB in Q. fold (echoes dfe osr phase md sout n) in Q.
    destruct (H n Hn) as (W & i & E & Hi & Cl). destruct (Q W) as [F B]. split; [|split; auto]. fold (exact_input ffe dfe mx md osr phase x sout n) in B. fold (weight ffe dfe mx md osr phase x sout n) in B. fold (error n) in B.
    rewrite decided_nth by lia. rewrite E. destruct (decided_near levels (level sin n) NL FL F) as (k & Hk & -> & D). destruct (Nat.eq_dec k i) as [->|Ne]; auto. exfalso.
    specialize (Cl k Hk Ne). specialize (D i Hi). unfold distance in D. set (r := exact_input ffe dfe mx md osr phase x sout n) in *. set (y := val (level sin n)) in *. set (li := val (level levels i)) in *. set (lk := val (level levels k)) in *.
    assert (A1 : Rabs (y - li) <= Rabs (r - li) + error n) by (replace (y - li) with ((y - r) + (r - li)) by ring; eapply Rle_trans; [apply Rabs_triang|]; lra).
    assert (A2 : Rabs (r - lk) <= Rabs (y - lk) + error n) by (replace (r - lk) with (- (y - r) + (y - lk)) by ring; eapply Rle_trans; [apply Rabs_triang|]; rewrite Rabs_Ropp; lra).
    pose proof (two_pos (-52)) as TP. assert (A3 : (1 + two (-52)) * Rabs (y - li) <= (1 + two (-52)) * (Rabs (r - li) + error n)) by (apply Rmult_le_compat_l; lra). lra. }
  assert (Es : map (decided levels) sin = sout) by (apply nth_ext with (B754_nan : f64) (B754_nan : f64); rewrite map_length; [lia|]; intros n Hn; apply K; lia).
  exists sin, zo. rewrite Es in C. split; [exact C|]. split; [rewrite <- Es; now apply slicer64_decided|]. intros n Hn. destruct (K n Hn) as (_ & [F _] & B). split; auto.
Qed.
Print Assumptions C76_decisions.

(** The echoes of the symbols [s] sent before symbol n over a channel with post-cursors [h]. *)
Definition postcursors (h s : list f64) (n : nat) : list R :=
  map (fun j => val (level h j) * sample [] s (Z.of_nat n - 1 - Z.of_nat j)) (seq 0 (length h)).
Lemma instants_one phase n : sampling_instants 1 phase n = rev (seq 0 n).
Proof.
  unfold sampling_instants. change (Z.to_nat (1 / 2)) with 0%nat. rewrite Nat.sub_0_r. f_equal. rewrite (filter_ext _ (fun _ => true)) by (intros a; rewrite !Z.mod_1_r; reflexivity).
  induction (seq 0 n) as [|a l IH]; auto. cbn [filter]. now rewrite IH.
Qed.
Lemma echoes_one h phase s n : (n <= length s)%nat -> echoes h 1 phase (repeat zero64 (length h)) s n = postcursors h s n.
Proof.
  intros L. unfold echoes, postcursors. apply map_ext_in. intros j Hj. apply in_seq in Hj. f_equal. unfold fed_back, sample. rewrite instants_one.
  destruct (Z.ltb_spec (Z.of_nat n - 1 - Z.of_nat j) 0) as [A|A].
  - unfold level at 1. rewrite app_nth2; rewrite map_length, rev_length, seq_length; [|lia]. fold (level (repeat zero64 (length h)) (j - n)). rewrite <- (level_val _ _ zero64) by reflexivity.
    unfold level. replace (nth _ [] B754_nan) with (B754_nan : f64) by (destruct (Z.to_nat _); reflexivity).
    replace (nth (j - n) (repeat zero64 (length h)) zero64) with zero64; [reflexivity|]. symmetry. generalize (j - n)%nat. clear. induction (length h) as [|m IH]; intros [|i]; cbn; auto.
  - unfold level at 1. rewrite app_nth1 by (rewrite map_length, rev_length, seq_length; lia). rewrite (map_nth_lt _ _ _ 0%nat) by (rewrite rev_length, seq_length; lia). rewrite rev_nth by (rewrite seq_length; lia).
    rewrite seq_length, seq_nth by lia. do 2 f_equal. lia.
Qed.
(** A matched DFE recovers every symbol: the received samples are the symbols plus their post-cursor interference plus a
    disturbance [w]; twice the disturbance and the rounding error together stay below the level distances. *)
Theorem C76_matched : forall dot (x h levels s : list f64) (w : nat -> R) (phase : Z),
  any_order dot -> x <> [] -> h <> [] -> Forall finite x -> Forall finite h -> Forall fine levels -> (Z.of_nat (length h) < 2 ^ 50)%Z -> length s = length x ->
  let weight n := Rabs (val (level x n)) + total (map Rabs (postcursors h s n)) in
  let error n := rounding (1 + length h) (weight n) in
  (forall n, (n < length x)%nat -> weight n <= two 1000 /\
     val (level x n) = val (level s n) + total (postcursors h s n) + w n /\
     exists i, (i < length levels)%nat /\ level s n = level levels i /\
       forall j, (j < length levels)%nat -> j <> i -> (2 + two (-52)) * (Rabs (w n) + error n) < distance (level levels i) (level levels j)) ->
  exists sin, ffe_dfe64 dot x [of_int 1 0] h levels 1 phase None None = Ok (sin, None, firstn (length h) (rev s ++ repeat zero64 (length h))) /\
    slicer64 levels sin = Ok s /\
    forall n, (n < length x)%nat -> Rabs (val (level sin n) - (val (level s n) + w n)) <= error n.
Proof.
  intros dot x h levels s w phase Dot Nx Nh Fx Fh FL Few Ls weight error H.
  destruct (of_int_int 1 ltac:(lia)) as [V1 F1].
  assert (Cu : forall n, cursors [of_int 1 0] [] x n = [val (level x n)]).
  { intros n. unfold cursors. cbn [length seq map]. unfold level at 1. cbn [nth]. rewrite V1. unfold sample. rewrite Z.sub_0_r. destruct (Z.ltb_spec (Z.of_nat n) 0); [lia|]. rewrite Nat2Z.id. f_equal. ring. }
  assert (We : forall n, (n <= length x)%nat -> S_eq64.weight [of_int 1 0] h [] (repeat zero64 (length h)) 1 phase x s n = weight n).
  { intros n Hn. unfold S_eq64.weight, weight. rewrite Cu, echoes_one by lia. cbn [map total fold_right]. unfold total. cbn [fold_right]. ring. }
  assert (Ex : forall n, (n < length x)%nat -> exact_input [of_int 1 0] h [] (repeat zero64 (length h)) 1 phase x s n = val (level s n) + w n).
  { intros n Hn. unfold exact_input. rewrite Cu, echoes_one by lia. destruct (H n Hn) as (_ & E & _). unfold total at 1. cbn [fold_right]. rewrite E. ring. }
  destruct (C76_decisions dot x [of_int 1 0] h levels 1 phase None None s Dot Nx ltac:(discriminate) Nh ltac:(lia) ltac:(discriminate) ltac:(discriminate) Fx ltac:(constructor; [apply F1|constructor]) Fh FL ltac:(cbn [length]; lia) Ls) as (sin & zo & C & S & B).
  - intros n Hn. destruct (H n Hn) as (W & E & i & Hi & Si & D). rewrite We, Ex by lia. cbn [length]. fold (error n). split; auto. exists i. split; auto. split; auto. intros j Hj Ne. specialize (D j Hj Ne). unfold distance in D. rewrite Si.
    set (li := val (level levels i)) in *. set (lj := val (level levels j)) in *. replace (li + w n - li) with (w n) by ring.
    assert (T : Rabs (li - lj) <= Rabs (li + w n - lj) + Rabs (w n)) by (replace (li - lj) with ((li + w n - lj) + - w n) by ring; eapply Rle_trans; [apply Rabs_triang|]; rewrite Rabs_Ropp; lra).
    lra.
  - exists sin. assert (Z0 : zo = None). { revert C. unfold ffe_dfe64. cbn [length Nat.eqb bind]. destruct (buffer _ _ _ _ _ _ _); cbn [bind]; [|discriminate]. destruct (dfe_loop64 _ _ _ _ _ _ _ _ _ _ _ _) as [[? ?]|]; cbn [bind]; congruence. }
    rewrite C, Z0. split; [|split; auto].
    + do 2 f_equal. f_equal. unfold fed_back. rewrite instants_one. rewrite map_rev. f_equal. rewrite <- Ls. f_equal. clear. unfold level.
      apply nth_ext with (B754_nan : f64) (B754_nan : f64); [now rewrite map_length, seq_length|]. intros n Hn. rewrite map_length, seq_length in Hn. now rewrite nth_map_seq by auto.
    + intros n Hn. destruct (B n Hn) as [_ Q]. rewrite Ex, We in Q by lia. exact Q.
Qed.
Print Assumptions C76_matched.
(** Noiseless PAM4 symbols 1, -3, 3, -1 over the channel 1 + D / 4, received with a matched DFE. *)
Definition sent : list f64 := map (fun k => of_int k 0) [1; -3; 3; -1]%Z.
Definition received : list f64 := map (fun k => of_int k (-2)) [4; -11; 9; -1]%Z.
Definition tap : list f64 := [of_int 1 (-2)].
Lemma small_52 : 0 < two (-52) <= / 1024.
Proof. split; [apply two_pos|]. change (/ 1024) with (bpow radix2 (-10)). apply bpow_le. lia. Qed.
Lemma small_1072 : 0 < two (-1072) <= / 1024.
Proof. split; [apply two_pos|]. change (/ 1024) with (bpow radix2 (-10)). apply bpow_le. lia. Qed.
Lemma quarter : bpow radix2 (-2) = / 4.
Proof. reflexivity. Qed.
Lemma big_1000 : 1024 <= two 1000.
Proof. change 1024 with (bpow radix2 10). apply bpow_le. lia. Qed.
Ltac four n H := let K := fresh in assert (K : (n = 0 \/ n = 1 \/ n = 2 \/ n = 3)%nat) by (cbn [length map] in H; lia); destruct K as [-> | [-> | [-> | ->]]].
Ltac numbers := cbn [map seq length nth Z.of_nat Z.sub Z.opp Z.add Z.pos_sub Z.ltb Z.compare Pos.of_succ_nat Z.to_nat Pos.to_nat Pos.iter_op Init.Nat.add Pos.pred_double Pos.succ Pos.compare Pos.compare_cont fold_right];
  rewrite ?(ov 1 (-2) eq_refl), ?(ov 4 (-2) eq_refl), ?(ov (-11) (-2) eq_refl), ?(ov 9 (-2) eq_refl), ?(ov (-1) (-2) eq_refl), ?(ov 1 0 eq_refl), ?(ov (-3) 0 eq_refl), ?(ov 3 0 eq_refl), ?(ov (-1) 0 eq_refl), ?quarter; change (bpow radix2 0) with 1; change (val B754_nan) with 0.
Lemma sent_weight n : (n < 4)%nat -> Rabs (val (level received n)) + total (map Rabs (postcursors tap sent n)) <= 8 /\ val (level received n) = val (level sent n) + total (postcursors tap sent n) + 0.
Proof.
  intros H. four n H; unfold postcursors, tap, sent, received, sample, total; numbers; change (Pos.to_nat 1) with 1%nat; change (Pos.to_nat 2) with 2%nat; unfold level; numbers; (split; [|lra]);
  repeat match goal with |- context [Rabs ?a] => let A := fresh in assert (A : Rabs a <= 4) by (apply Rabs_le; lra); revert A; generalize (Rabs a); intros ? ? end; lra.
Qed.
Lemma pam4_fine : Forall fine pam4.
Proof. apply C74_slicer_case. Qed.
Lemma pam4_apart i j : (i < 4)%nat -> (j < 4)%nat -> j <> i -> 2 <= distance (level pam4 i) (level pam4 j).
Proof.
  intros Hi Hj Ne. unfold distance, level, pam4. four i Hi; (four j Hj); try lia; cbn [map nth]; rewrite ?(ov 1 0 eq_refl), ?(ov (-3) 0 eq_refl), ?(ov 3 0 eq_refl), ?(ov (-1) 0 eq_refl); change (bpow radix2 0) with 1;
  unfold Rabs; destruct (Rcase_abs _); lra.
Qed.
Example C76_matched_case : forall dot, any_order dot ->
  exists sin, ffe_dfe64 dot received [of_int 1 0] tap pam4 1 0 None None = Ok (sin, None, [of_int (-1) 0]) /\ slicer64 pam4 sin = Ok sent.
Proof.
  intros dot Dot. destruct (C76_matched dot received tap pam4 sent (fun _ => 0) 0 Dot ltac:(discriminate) ltac:(discriminate)) as (sin & C & S & _).
  - repeat (apply Forall_cons; [apply of_int_fine; lia|]). apply Forall_nil.
  - repeat (apply Forall_cons; [apply of_int_fine; lia|]). apply Forall_nil.
  - apply pam4_fine.
  - cbn [length tap]. lia.
  - reflexivity.
  - intros n Hn. change (length received) with 4%nat in Hn. destruct (sent_weight n Hn) as [W E]. split; [pose proof big_1000; lra|]. split; [exact E|].
    assert (B : rounding (1 + length tap) (Rabs (val (level received n)) + total (map Rabs (postcursors tap sent n))) <= 1 / 4).
    { unfold rounding, tap. cbn [length Nat.add INR]. fold tap. pose proof small_52. pose proof small_1072. set (ww := Rabs _ + _) in *. nra. }
    assert (P : exists i, (i < 4)%nat /\ level sent n = level pam4 i).
    { four n Hn; [exists 2%nat|exists 0%nat|exists 3%nat|exists 1%nat]; (split; [lia|reflexivity]). }
    destruct P as (i & Hi & Ei). exists i. split; [exact Hi|]. split; [exact Ei|]. intros j Hj Ne. pose proof (pam4_apart i j Hi Hj Ne). rewrite Rabs_R0. pose proof small_52.
    set (r := rounding _ _) in *. nra.
  - exists sin. split; [exact C|exact S].
Qed.

(** Two calls in a row give bit for bit what one call gives, if dot products of equal arrays have equal results. *)
Theorem C76_streaming : forall dot (x1 x2 ffe dfe levels : list f64) (osr phase : Z) (zf zd : option (list f64)),
  (forall k k' u v, dot k u v = dot k' u v) -> x1 <> [] -> x2 <> [] -> (2 <= length ffe)%nat -> dfe <> [] -> levels <> [] -> (0 < osr)%Z ->
  (forall z, zf = Some z -> length z = length ffe) -> (forall z, zd = Some z -> length z = length dfe) ->
  (Z.of_nat (length x1) mod osr = 0)%Z -> (phase mod osr + osr / 2 < osr)%Z ->
  exists s1 f1 d1 s2 f2 d2, ffe_dfe64 dot x1 ffe dfe levels osr phase zf zd = Ok (s1, Some f1, d1) /\
    ffe_dfe64 dot x2 ffe dfe levels osr phase (Some f1) (Some d1) = Ok (s2, Some f2, d2) /\
    ffe_dfe64 dot (x1 ++ x2) ffe dfe levels osr phase zf zd = Ok (s1 ++ s2, Some f2, d2).
Proof. intros. now apply stream64. Qed.
Print Assumptions C76_streaming.

(** Results of computations on doubles, by computing. *)
Definition bits_of (r : res (list f64 * option (list f64) * list f64)) : option (list _ * list _) :=
  match r with Ok (s, _, d) => Some (map B2SF s, map B2SF d) | Raise _ => None end.
Definition ones : list f64 := [of_int 1 0; of_int 1 0; of_int 1 0].
(** (Finding.)  Near a threshold the decision depends on the order in which the dot product adds: for the samples 0.8, 1.2
    and -4 and three unit taps one order gives -2 (decided -3), another one -2 + 2^-52 (decided -1). *)
Theorem C76_order_refuted : exists dot1 dot2 (x ffe dfe : list f64), any_order dot1 /\ any_order dot2 /\
  option_map snd (bits_of (ffe_dfe64 dot1 x ffe dfe pam4 1 0 None None)) = Some [B2SF (of_int (-3) 0)] /\
  option_map snd (bits_of (ffe_dfe64 dot2 x ffe dfe pam4 1 0 None None)) = Some [B2SF (of_int (-1) 0)].
Proof.
  exists dot_left, dot_right, ten, ones, [of_int 0 0]. split; [apply dot_left_ok|]. split; [apply dot_right_ok|]. split; vm_compute; reflexivity.
Qed.
Print Assumptions C76_order_refuted.
Example C76_streaming_case : (forall k k' u v, dot_left k u v = dot_left k' u v) /\
  bits_of (ffe_dfe64 dot_left (received ++ received) [of_int 1 0; of_int 1 (-2)] tap pam4 2 0 None None) =
  Some (map B2SF (map (fun k => of_int k (-4)) [16; -40; 21; 1; 11; -44; 21; 1]%Z), [B2SF (of_int 1 0)]).
Proof. split; [reflexivity|]. vm_compute. reflexivity. Qed.
