(** C22-C27: convolutional coding.  Theorems only; proofs are in P_conv.v, P_trellis.v, P_convdec.v, P_viterbi.v. *)
From Verif Require Import Py B_list M_aux S_aux M_linear S_linear P_linear M_conv S_conv P_conv P_trellis M_convdec P_convdec P_viterbi M_levels M_convfloat.
From Coq Require Import QArith.
Open Scope Z_scope.

(** Codes used in the examples: (7,5), a recursive systematic code, and a two-input code. *)
Definition code75 := mk_code [[[1; 1; 1]; [1; 0; 1]]] None None.
Definition code_rsc := mk_code [[[1; 0]; [0; 1]]] (Some [Some [1; 1]]) (Some [[0; 1]]).
Definition code_two := mk_code [[[1; 0]; [0; 0]; [1; 1]]; [[0; 0; 0]; [1; 0; 0]; [0; 0; 1]]] None None.
Definition code_rep := mk_code [[[1; 0]; [1; 0]; [1; 0]; [0; 1]]] None None.
Ltac two := repeat match goal with
  | H : (?i < S _)%nat |- _ => destruct i; [clear H|apply Nat.succ_lt_mono in H]
  | H : (?i < 0)%nat |- _ => now inversion H
  | H : (?i < length _)%nat |- _ => cbn [length gen n_out nth] in H
  end.
Lemma shape_code c : gen c <> [] -> (0 < n_out c)%nat ->
  forallb (fun Gi => (length Gi =? n_out c)%nat && forallb (fun r => (length r =? length (nth 0 Gi []))%nat && (0 <? length r)%nat && forallb (fun x => (x =? 0) || (x =? 1)) r) Gi) (gen c) = true ->
  match fdb c with None => true | Some fl => (length fl =? length (gen c))%nat && forallb (fun o => match o with None => true | Some f => forallb (fun x => (x =? 0) || (x =? 1)) f && (nth 0 f 0 =? 1) end) fl end = true ->
  match ufb c with None => true | Some m => (length m =? length (gen c))%nat && forallb (fun r => (length r =? n_out c)%nat && forallb (fun x => (x =? 0) || (x =? 1)) r) m end = true ->
  code_shape c.
Proof.
  intros H1 H2 H3 H4 H5. rewrite forallb_forall in H3.
  assert (A : forall i, (i < length (gen c))%nat -> length (nth i (gen c) []) = n_out c /\ forall r, In r (nth i (gen c) []) ->
     length r = length (nth 0 (nth i (gen c) []) []) /\ (0 < length r)%nat /\ bits r).
  { intros i Hi. specialize (H3 _ (nth_In (gen c) [] Hi)). apply andb_true_iff in H3. destruct H3 as [A B]. split; [now apply Nat.eqb_eq|].
    rewrite forallb_forall in B. intros r Hr. specialize (B r Hr). rewrite !andb_true_iff in B. destruct B as [[B C] D].
    split; [now apply Nat.eqb_eq|]. split; [now apply Nat.ltb_lt|now apply bits_check]. }
  constructor; auto.
  - intros i Hi. now apply A.
  - intros i j Hi Hj. destruct (A i Hi) as [L R]. unfold poly.
    assert (R0 := R (nth 0 (nth i (gen c) []) []) ltac:(apply nth_In; lia)). assert (Rj := R (nth j (nth i (gen c) []) []) ltac:(apply nth_In; lia)).
    split; [apply Rj|]. split; [apply R0|apply Rj].
  - intros fl E. rewrite E in H4. apply andb_true_iff in H4. destruct H4 as [L B]. split; [now apply Nat.eqb_eq|]. rewrite forallb_forall in B.
    apply Forall_forall. intros o Ho f ->. specialize (B _ Ho). cbn beta iota in B. apply andb_true_iff in B. destruct B as [B C]. split; [now apply bits_check|now apply Z.eqb_eq].
  - intros m E. rewrite E in H5. apply andb_true_iff in H5. destruct H5 as [L B]. split; [now apply Nat.eqb_eq|]. rewrite forallb_forall in B.
    apply Forall_forall. intros r Hr. specialize (B r Hr). apply andb_true_iff in B. destruct B as [B C]. split; [now apply Nat.eqb_eq|now apply bits_check].
Qed.
Lemma shape_trellis c :
  forallb (fun i => match fb_get c i with Some f => (length f =? length (poly c i 0))%nat
     | None => match fdb c with None => true | Some _ => forallb (fun j => forallb (Z.eqb 0) (tl (poly c i j))) (seq 0 (n_out c)) end end) (seq 0 (length (gen c))) = true ->
  trellis_shape c.
Proof.
  rewrite forallb_forall. intros H. split.
  - intros i f Hi E. specialize (H i (proj2 (in_seq _ _ _) (conj (Nat.le_0_l _) Hi))). rewrite E in H. now apply Nat.eqb_eq.
  - intros N i j Hi Hj E. specialize (H i (proj2 (in_seq _ _ _) (conj (Nat.le_0_l _) Hi))). rewrite E in H. destruct (fdb c); [|congruence].
    rewrite forallb_forall in H. apply forallb_zero, H, in_seq. lia.
Qed.
Ltac code := apply shape_code; [discriminate|vm_compute; repeat constructor|reflexivity..].

(** C22: the encoder computes, per output and time, the parity of the generator polynomials applied to the
    (feedback) shift registers started at zero... *)
Theorem C22_coding_conv_parity : forall (c : conv_code) (x : list Z) (zi : option (list (list Z))),
  code_shape c -> bits x -> x <> [] -> check_valid_conv x c = Ok tt ->
  exists y, coding_conv x c zi = Ok y /\ length y = (conv_steps c x * n_out c)%nat /\
    forall t j, (t < conv_steps c x)%nat -> (j < n_out c)%nat ->
      nth (t * n_out c + j) y 0 =
      (sumZ (map (fun i => dotZ (poly c i j) (reg_hist (out_taps c i j) [] (in_bit c x i) (S t))) (seq 0 (length (gen c))))) mod 2.
Proof.
  intros c x zi S B N V. exists (conv_from c zero_regs x). split; [now apply coding_conv_eq|]. split; [apply conv_from_length|].
  intros t j Ht Hj. apply (conv_from_nth c zero_regs x t j Ht Hj).
Qed.
Print Assumptions C22_coding_conv_parity.
(** ... which is the walk through the trellis the decoders build, from the all-zero state. *)
Theorem C22_coding_conv_is_trellis_walk : forall (c : conv_code) (x : list Z) (zi : option (list (list Z))),
  code_shape c -> trellis_shape c -> bits x -> x <> [] -> check_valid_conv x c = Ok tt ->
  exists y es final, coding_conv x c zi = Ok y /\ trellis_entries c = Ok es /\
    trellis_walk es (repeat 0 (all_cells c)) (map (fun t => block (length (gen c)) t x) (seq 0 (conv_steps c x))) = Ok (y, final).
Proof.
  intros c x zi S T B N V. destruct (coding_conv_walk c x zi S T B N V) as (y & es & A & E & W). exists y, es. eexists. split; auto. split; [auto|]. exact W.
Qed.
Print Assumptions C22_coding_conv_is_trellis_walk.
Example C22_case :
  code_shape code_rsc /\ trellis_shape code_rsc /\ check_valid_conv [1; 0; 0; 1; 1] code_rsc = Ok tt /\
  coding_conv [1; 0; 0; 1; 1] code_rsc None = Ok [1; 0; 0; 1; 0; 1; 1; 1; 1; 0] /\
  code_shape code_two /\ trellis_shape code_two /\
  coding_conv [1; 1; 0; 1; 1] code_two None = Ok [1; 1; 1; 0; 1; 1; 1; 0; 0].
Proof.
  split; [code|]. split; [apply shape_trellis; reflexivity|]. split; [reflexivity|]. split; [vm_compute; reflexivity|].
  split; [code|]. split; [apply shape_trellis; reflexivity|]. vm_compute; reflexivity.
Qed.
(** Which settings are refused: exactly those whose feedback settings do not belong together, by encoder and decoders. *)
Theorem C22_validity : forall (c : conv_code) (x : list Z) (zi : option (list (list Z))) (tb : nat), binary_code c -> bits x ->
  (check_valid_conv x c = Ok tt <-> feedback_fits c) /\
  (~ feedback_fits c -> coding_conv x c zi = Raise ValueError /\ decoding_conv_ml x c tb = Raise ValueError /\ decoding_conv_viterbi x c tb = Raise ValueError).
Proof.
  intros c x zi tb C B. pose proof (validity c x C B) as V. split; [exact V|]. intros N. assert (E : check_valid_conv x c = Raise ValueError) by (destruct (valid_or_value_error x c) as [E|E]; [apply V in E; contradiction|exact E]).
  unfold coding_conv, decoding_conv_ml, decoding_conv_viterbi. rewrite E. auto.
Qed.
Print Assumptions C22_validity.
Example C22_validity_case : binary_code code_rsc /\ feedback_fits code_rsc /\ binary_code (mk_code (gen code_rsc) (fdb code_rsc) (Some [[1; 1]])) /\
  ~ feedback_fits (mk_code (gen code_rsc) (fdb code_rsc) (Some [[0; 0]])) /\ ~ feedback_fits (mk_code (gen code_rsc) (fdb code_rsc) None) /\ ~ feedback_fits (mk_code (gen code_rsc) (fdb code_rsc) (Some [[0; 1]; [0; 1]])).
Proof.
  assert (BC : forall uf, binary_code (mk_code (gen code_rsc) (fdb code_rsc) uf)).
  { intros uf. split; [discriminate|]. split; [intros [|[|i]] Hi; cbn in *; try lia; reflexivity|]. split.
    - intros [|i] j Hi Hj; cbn in Hi, Hj; [|lia]. destruct j as [|[|j]]; [| |lia]; apply bits_check; reflexivity.
    - intros fl f E. injection E as <-. intros [E|[]]. injection E as <-. apply bits_check; reflexivity. }
  assert (V : forall uf, feedback_fits (mk_code (gen code_rsc) (fdb code_rsc) uf) <-> check_valid_conv [] (mk_code (gen code_rsc) (fdb code_rsc) uf) = Ok tt) by (intros uf; symmetry; apply validity; [apply BC|constructor]).
  split; [apply (BC (ufb code_rsc))|]. split; [apply (V (ufb code_rsc)); reflexivity|]. split; [apply BC|]. rewrite !V. split; [|split]; vm_compute; discriminate.
Qed.
(** Finding: with a feedback dictionary, the trellis ignores the delayed taps of an input without feedback. *)
Theorem C22_trellis_ignores_taps_refuted : exists (c : conv_code) (x y : list Z) (es : list trellis_entry) (z final : list Z),
  code_shape c /\ check_valid_conv x c = Ok tt /\ bits x /\ coding_conv x c None = Ok y /\ trellis_entries c = Ok es /\
  trellis_walk es (repeat 0 (all_cells c)) (map (fun t => block (length (gen c)) t x) (seq 0 (conv_steps c x))) = Ok (z, final) /\ y <> z.
Proof.
  exists (mk_code [[[1; 1]]; [[1; 1]]] (Some [Some [1; 1]; None]) (Some [[1]; [0]])), [0; 1; 0; 0].
  eexists _, _, _, _. split; [code|]. split; [reflexivity|]. split; [apply bits_check; reflexivity|]. split; [vm_compute; reflexivity|].
  split; [vm_compute; reflexivity|]. split; [vm_compute; reflexivity|]. discriminate.
Qed.
Print Assumptions C22_trellis_ignores_taps_refuted.
(** Finding: [zi] has no effect; the encoder always starts from zero registers. *)
Theorem C22_initial_state_refuted : exists (c : conv_code) (x : list Z) (init : list (list Z)),
  code_shape c /\ check_valid_conv x c = Ok tt /\ bits x /\
  coding_conv x c (Some init) = coding_conv x c None /\ coding_conv x c (Some init) <> Ok (conv_from c (fun i => nth i init []) x).
Proof.
  exists code75, [1; 0; 0], [[1; 0]]. split; [code|]. split; [reflexivity|]. split; [apply bits_check; reflexivity|].
  split; [reflexivity|]. vm_compute. discriminate.
Qed.
Print Assumptions C22_initial_state_refuted.
(** Finding: a one-tap generator is filtered with the feedback polynomial although use_feedback is 0. *)
Theorem C22_use_feedback_one_tap_refuted : exists (c : conv_code) (x : list Z),
  code_shape c /\ check_valid_conv x c = Ok tt /\ bits x /\ gen c = [[[1]]] /\ uf_get c 0 0 = 0 /\ coding_conv x c None <> Ok x.
Proof.
  exists (mk_code [[[1]]] (Some [Some [1; 1]]) (Some [[0]])), [1; 0; 0]. split; [code|]. split; [reflexivity|]. split; [apply bits_check; reflexivity|].
  split; [reflexivity|]. split; [reflexivity|]. vm_compute. discriminate.
Qed.
Print Assumptions C22_use_feedback_one_tap_refuted.

(** C23: linear and causal. *)
Theorem C23_coding_conv_linear : forall (c : conv_code) (x x' : list Z),
  code_shape c -> bits x -> bits x' -> x <> [] -> length x = length x' -> check_valid_conv x c = Ok tt ->
  exists y y', coding_conv x c None = Ok y /\ coding_conv x' c None = Ok y' /\ coding_conv (xor_bits x x') c None = Ok (xor_bits y y').
Proof.
  intros c x x' S B B' N L V. exists (conv_from c zero_regs x), (conv_from c zero_regs x').
  assert (N' : x' <> []) by (intros ->; destruct x; [congruence|discriminate L]).
  assert (Nx : xor_bits x x' <> []) by (intros E; apply (f_equal (@length Z)) in E; rewrite xor_bits_length in E by auto; destruct x; [congruence|discriminate E]).
  split; [now apply coding_conv_eq|]. split; [apply coding_conv_eq; auto; eapply check_any; eauto|]. rewrite <- conv_from_xor by auto.
  apply coding_conv_eq; auto using xor_bits_bits. eapply check_any; eauto using xor_bits_bits.
Qed.
Print Assumptions C23_coding_conv_linear.
Theorem C23_coding_conv_causal : forall (c : conv_code) (x z : list Z) (k : nat),
  code_shape c -> bits x -> bits z -> x <> [] -> length x = (k * length (gen c))%nat -> check_valid_conv x c = Ok tt ->
  exists y y', coding_conv x c None = Ok y /\ coding_conv (x ++ z) c None = Ok y' /\ firstn (k * n_out c) y' = y.
Proof.
  intros c x z k S B Bz N L V. exists (conv_from c zero_regs x), (conv_from c zero_regs (x ++ z)). assert (Bx : bits (x ++ z)) by (apply bits_app; auto).
  split; [now apply coding_conv_eq|]. split; [apply coding_conv_eq; auto; [destruct x; [congruence|discriminate]|eapply check_any; eauto]|].
  apply conv_from_prefix; auto. now apply gen_pos.
Qed.
Print Assumptions C23_coding_conv_causal.
Example C23_case : check_valid_conv [1; 0; 1] code75 = Ok tt /\
  coding_conv [1; 0; 1] code75 None = Ok [1; 1; 1; 0; 0; 0] /\ coding_conv [0; 1; 1] code75 None = Ok [0; 0; 1; 1; 0; 1] /\
  coding_conv [1; 1; 0] code75 None = Ok [1; 1; 0; 1; 0; 1].
Proof. repeat split. Qed.

(** C24 finding: in double precision the feedback recursion grows without bound and loses its parity. *)
Theorem C24_feedback_float_exactness_refuted : exists (row fb x y : list Z),
  let c := mk_code [[row]] (Some [Some fb]) (Some [[1]]) in
  code_shape c /\ check_valid_conv x c = Ok tt /\ bits x /\ coding_conv x c None = Ok y /\
  (length x = 121)%nat /\ firstn 98 (coding_conv1_f64 row fb x) = firstn 98 y /\
  skipn 98 (coding_conv1_f64 row fb x) = repeat 0 23 /\ skipn 98 y <> repeat 0 23.
Proof.
  exists [1; 0; 0; 0], [1; 1; 0; 1], (1 :: repeat 0 120). eexists. cbn zeta. split; [code|]. split; [vm_compute; reflexivity|].
  split; [apply bits_check; reflexivity|]. split; [vm_compute; reflexivity|]. split; [reflexivity|].
  split; [vm_compute; reflexivity|]. split; [vm_compute; reflexivity|]. discriminate.
Qed.
Print Assumptions C24_feedback_float_exactness_refuted.

(** C25: the block decoder returns, per block, inputs whose output from some start state is nearest among all
    start states and inputs; the reported probability counts the equally near pairs. *)
Theorem C25_decoding_conv_ml_nearest : forall (c : conv_code) (T : nat) (r : list Z),
  code_shape c -> trellis_shape c -> check_valid_conv [] c = Ok tt -> (0 < T)%nat -> bits r ->
  let tb := (T * n_out c)%nat in let K := (length (gen c) * T)%nat in
  exists d p a, decoding_conv_ml r c tb = Ok d /\ decoding_conv_ml_ep r c tb = Ok (d, p, a) /\
    length d = (length r / tb * K)%nat /\ length p = (length r / tb)%nat /\
    forall b, (b < length r / tb)%nat -> bits (block K b d) /\ exists st, isstate c st /\
      let near := hdist (conv_from c (unpack c st) (block K b d)) (block tb b r) in
      (forall st' w, isstate c st' -> length w = K -> bits w -> (near <= hdist (conv_from c (unpack c st') w) (block tb b r))%nat) /\
      nth b p 0%Q = (if (near =? 0)%nat then 0%Q else (1 # Pos.of_nat (pairs_at c K (block tb b r) near))%Q).
Proof.
  intros c T r S TS V HT B tb K. destruct (decoding_conv_ml_ep_spec c S TS V T HT r B) as (d & p & a & E1 & E2 & L1 & L2 & _ & H & _).
  exists d, p, a. split; auto. split; auto. split; auto. split; auto. intros b Hb. destruct (H b Hb) as ((_ & Bd & _) & st & Hst & Ea & Hm & Hp).
  split; auto. exists st. split; auto. cbn zeta. unfold codeword_of in *. fold tb K in Ea, Hm, Hp. rewrite Ea in Hm, Hp. auto.
Qed.
Print Assumptions C25_decoding_conv_ml_nearest.
(** Up to t errors per block are corrected when the outputs of different inputs (from any start states)
    differ in 2t+1 places; t = 0 is recovery of an error-free stream. *)
Theorem C25_decoding_conv_ml_corrects : forall (c : conv_code) (T t : nat) (x r : list Z),
  code_shape c -> trellis_shape c -> check_valid_conv [] c = Ok tt -> (0 < T)%nat -> bits x -> x <> [] -> bits r ->
  let tb := (T * n_out c)%nat in let K := (length (gen c) * T)%nat in
  (forall st st' u u', isstate c st -> isstate c st' -> length u = K -> bits u -> length u' = K -> bits u' -> u <> u' ->
     (2 * t + 1 <= hdist (conv_from c (unpack c st) u) (conv_from c (unpack c st') u'))%nat) ->
  exists y, coding_conv x c None = Ok y /\
   (length r = length y -> (forall b, (b < length y / tb)%nat -> (hdist (block tb b y) (block tb b r) <= t)%nat) ->
    exists d, decoding_conv_ml r c tb = Ok d /\ length d = (length y / tb * K)%nat /\ forall i, (i < length d)%nat -> nth i d 0 = nth i x 0).
Proof.
  intros c T t x r S TS V HT Bx Nx Br tb K Sep. exists (conv_from c zero_regs x).
  assert (E : coding_conv x c None = Ok (conv_from c zero_regs x)) by (apply coding_conv_eq; auto; now apply (check_any [])).
  split; auto. intros L He. apply (decoding_conv_ml_corrects c S TS V T HT t x None _ r); auto.
Qed.
Print Assumptions C25_decoding_conv_ml_corrects.
(** The separation condition can be checked by enumeration. *)
Definition separatedb (c : conv_code) (K t : nat) : bool :=
  forallb (fun s => forallb (fun s' => forallb (fun u => forallb (fun u' =>
    (if list_eq_dec Z.eq_dec u u' then true else false) || (2 * t + 1 <=? hdist (conv_from c (unpack c s) u) (conv_from c (unpack c s') u'))%nat)
    (words K)) (words K)) (words (all_cells c))) (words (all_cells c)).
Lemma separatedb_ok c K t : separatedb c K t = true ->
  forall st st' u u', isstate c st -> isstate c st' -> length u = K -> bits u -> length u' = K -> bits u' -> u <> u' ->
     (2 * t + 1 <= hdist (conv_from c (unpack c st) u) (conv_from c (unpack c st') u'))%nat.
Proof.
  intros H st st' u u' [L1 B1] [L2 B2] L3 B3 L4 B4 N. unfold separatedb in H. rewrite forallb_forall in H. specialize (H st (words_all _ _ L1 B1)).
  rewrite forallb_forall in H. specialize (H st' (words_all _ _ L2 B2)). rewrite forallb_forall in H. specialize (H u (words_all _ _ L3 B3)).
  rewrite forallb_forall in H. specialize (H u' (words_all _ _ L4 B4)). destruct (list_eq_dec Z.eq_dec u u'); [congruence|]. now apply Nat.leb_le.
Qed.
Example C25_case :
  code_shape code_rep /\ trellis_shape code_rep /\ check_valid_conv [] code_rep = Ok tt /\ separatedb code_rep 2 1 = true /\
  separatedb code75 3 0 = true /\
  coding_conv [1; 0; 1; 1] code_rep None = Ok [1; 1; 1; 0; 0; 0; 0; 1; 1; 1; 1; 0; 1; 1; 1; 1] /\
  decoding_conv_ml [1; 0; 1; 0; 0; 0; 0; 1; 1; 1; 1; 0; 1; 1; 0; 1] code_rep 8 = Ok [1; 0; 1; 1].
Proof.
  split; [code|]. split; [apply shape_trellis; reflexivity|]. split; [reflexivity|]. repeat split; vm_compute; reflexivity.
Qed.

(** C26: the Viterbi decoder recovers every error-free stream if every input has a memory cell, transitions
    into the same state have different outputs and block outputs determine block inputs.  The returned state
    is the end of a path with the received outputs.  The error probability of a block is 0 if such paths have one end
    only and 1/n if they have n. *)
Theorem C26_viterbi_recovers : forall (c : conv_code) (T : nat) (x : list Z),
  code_shape c -> trellis_shape c -> check_valid_conv [] c = Ok tt -> (0 < T)%nat -> bits x -> x <> [] ->
  let tb := (T * n_out c)%nat in let K := (length (gen c) * T)%nat in
  (forall i, (i < length (gen c))%nat -> (0 < cells c i)%nat) ->
  (forall s s' i i', isstate c s -> isstate c s' -> isinput c i -> isinput c i' ->
     state_after c s i 1 = state_after c s' i' 1 -> conv_from c (unpack c s) i = conv_from c (unpack c s') i' -> s = s') ->
  (forall s s' u u', isstate c s -> isstate c s' -> length u = K -> bits u -> length u' = K -> bits u' ->
     conv_from c (unpack c s) u = conv_from c (unpack c s') u' -> u = u') ->
  exists y, coding_conv x c None = Ok y /\
   ((tb <= length y)%nat -> exists d last p, decoding_conv_viterbi y c tb = Ok (d, last, p) /\
     length d = (length y / tb * K)%nat /\ (forall i, (i < length d)%nat -> nth i d 0 = nth i x 0) /\
     let b := (length y / tb - 1)%nat in
     (exists s0, isstate c s0 /\ conv_from c (unpack c s0) (block K b d) = block tb b y /\
       val_msb (state_after c s0 (block K b d) T) = Z.of_nat last) /\
     length p = (length y / tb)%nat /\ forall b, (b < length y / tb)%nat ->
       exists ends, NoDup ends /\ (forall e, In e ends <-> ends_in c T (block K b d) (block tb b y) e) /\ nth b p 0%Q = tie_prob (length ends)).
Proof. exact viterbi_stream_spec. Qed.
Print Assumptions C26_viterbi_recovers.
Definition distinct_inb (c : conv_code) : bool :=
  forallb (fun s => forallb (fun s' => forallb (fun i => forallb (fun i' =>
    (if list_eq_dec Z.eq_dec s s' then true else false) ||
    negb (if list_eq_dec Z.eq_dec (state_after c s i 1) (state_after c s' i' 1) then true else false) ||
    negb (if list_eq_dec Z.eq_dec (conv_from c (unpack c s) i) (conv_from c (unpack c s') i') then true else false))
    (words (length (gen c)))) (words (length (gen c)))) (words (all_cells c))) (words (all_cells c)).
Lemma distinct_inb_ok c : distinct_inb c = true -> forall s s' i i', isstate c s -> isstate c s' -> isinput c i -> isinput c i' ->
     state_after c s i 1 = state_after c s' i' 1 -> conv_from c (unpack c s) i = conv_from c (unpack c s') i' -> s = s'.
Proof.
  intros H st st' u u' [L1 B1] [L2 B2] [L3 B3] [L4 B4] E1 E2. unfold distinct_inb in H. rewrite forallb_forall in H. specialize (H st (words_all _ _ L1 B1)).
  rewrite forallb_forall in H. specialize (H st' (words_all _ _ L2 B2)). rewrite forallb_forall in H. specialize (H u (words_all _ _ L3 B3)).
  rewrite forallb_forall in H. specialize (H u' (words_all _ _ L4 B4)). rewrite E1, E2 in H.
  destruct (list_eq_dec Z.eq_dec st st'); auto. destruct (list_eq_dec Z.eq_dec _ _) as [_|]; [|congruence]. destruct (list_eq_dec Z.eq_dec _ _) as [_|]; [|congruence]. discriminate H.
Qed.
Example C26_case : distinct_inb code75 = true /\ separatedb code75 3 0 = true /\ (forall i, (i < length (gen code75))%nat -> (0 < cells code75 i)%nat) /\
  coding_conv [1; 0; 1; 1; 1; 0] code75 None = Ok [1; 1; 1; 0; 0; 0; 0; 1; 1; 0; 0; 1] /\
  decoding_conv_viterbi [1; 1; 1; 0; 0; 0; 0; 1; 1; 0; 0; 1] code75 6 = Ok ([1; 0; 1; 1; 1; 0], 1%nat, [0; 0]%Q).
Proof.
  split; [vm_compute; reflexivity|]. split; [vm_compute; reflexivity|]. split; [|split; vm_compute; reflexivity].
  intros i Hi. cbn in Hi. destruct i; [|lia]. vm_compute. lia.
Qed.
(** Finding: an input without a memory cell gives parallel transitions; the decoder keeps only one of them,
    so an error-free stream is decoded wrongly although block outputs determine block inputs. *)
Theorem C26_parallel_transitions_refuted : exists (c : conv_code) (T : nat) (x y d : list Z) (last : nat) (p : list Q),
  code_shape c /\ trellis_shape c /\ check_valid_conv [] c = Ok tt /\ bits x /\
  separatedb c (length (gen c) * T) 0 = true /\
  coding_conv x c None = Ok y /\ decoding_conv_ml y c (T * n_out c) = Ok x /\
  decoding_conv_viterbi y c (T * n_out c) = Ok (d, last, p) /\ d <> x.
Proof.
  exists (mk_code [[[1; 1]; [0; 0]; [1; 0]]; [[0]; [1]; [0]]] None None), 2%nat, [0; 0; 1; 0]. eexists _, _, _, _.
  split; [code|]. split; [apply shape_trellis; reflexivity|]. split; [reflexivity|]. split; [apply bits_check; reflexivity|].
  split; [vm_compute; reflexivity|]. split; [vm_compute; reflexivity|]. split; [vm_compute; reflexivity|]. split; [vm_compute; reflexivity|]. discriminate.
Qed.
Print Assumptions C26_parallel_transitions_refuted.

(** C27 finding: predecessors are chosen by the branch metric alone.  One bit error: the ML decoder recovers
    the data, the Viterbi decoder returns a word that is strictly farther from every start state. *)
Theorem C27_viterbi_is_ml_refuted : exists (c : conv_code) (T : nat) (x y r d : list Z) (last : nat) (p : list Q),
  code_shape c /\ trellis_shape c /\ check_valid_conv [] c = Ok tt /\ bits x /\ bits r /\
  coding_conv x c None = Ok y /\ hdist y r = 1%nat /\ decoding_conv_ml r c (T * n_out c) = Ok x /\
  decoding_conv_viterbi r c (T * n_out c) = Ok (d, last, p) /\ d <> x /\
  (forall st, isstate c st -> (1 < hdist (conv_from c (unpack c st) d) r)%nat).
Proof.
  exists code75, 5%nat, [0; 0; 1; 0; 0]. eexists _, [0; 0; 0; 0; 1; 1; 1; 0; 0; 1], _, _, _.
  split; [code|]. split; [apply shape_trellis; reflexivity|]. split; [reflexivity|]. split; [apply bits_check; reflexivity|]. split; [apply bits_check; reflexivity|].
  split; [vm_compute; reflexivity|]. split; [vm_compute; reflexivity|]. split; [vm_compute; reflexivity|]. split; [vm_compute; reflexivity|]. split; [discriminate|].
  intros st [L B]. assert (M := words_all _ _ L B). assert (H : forallb (fun st => (1 <? hdist (conv_from code75 (unpack code75 st) [0; 1; 1; 1; 0]%Z) [0; 0; 0; 0; 1; 1; 1; 0; 0; 1]%Z)%nat) (words (all_cells code75)) = true) by (vm_compute; reflexivity).
  rewrite forallb_forall in H. apply Nat.ltb_lt. apply H. exact M.
Qed.
Print Assumptions C27_viterbi_is_ml_refuted.
(** Finding: a pattern shorter than one block raises UnboundLocalError. *)
Theorem C27_viterbi_short_pattern : forall (c : conv_code) (tb : nat) (r : list Z),
  code_shape c -> trellis_shape c -> check_valid_conv [] c = Ok tt -> bits r -> (length r < tb)%nat ->
  decoding_conv_viterbi r c tb = Raise UnboundLocalError.
Proof. exact viterbi_short. Qed.
Print Assumptions C27_viterbi_short_pattern.
Example C27_case : decoding_conv_viterbi [1; 1] code75 4 = Raise UnboundLocalError.
Proof. reflexivity. Qed.
