(** Proofs: decoders of the example link that return for every chunk, and encoders that carry every chunk. *)
From Coq Require Import Reals Lia String.
From Verif Require Import Py PyQ B_list M_aux P_aux M_symbol P_symbol M_coding P_coding M_linear S_linear P_linear M_conv S_conv P_conv P_trellis M_convdec P_convdec P_viterbi S_viterbitot P_viterbitot.
From Verif Require Import M_sim S_sim P_sim P_simcode M_simcheck M_rxloop M_link P_fulldig S_full P_full S_coded P_coded S_works.
From Coq Require Import QArith Qround.
Import List ListNotations.
Open Scope Z_scope.

Lemma diff_range c x : x <> [] -> exists d, decoding_differential c (vec x) = Ok (vec d) /\ length d = length x /\ Forall (fun v => 0 <= v < Z.of_nat (length (get_levels c))) d.
Proof.
  intros N. destruct (decoding_diff_vec c x N) as (d & E & L & Nd). exists d. split; [exact E|]. split; [exact L|]. apply Forall_forall. intros v Hv. apply (In_nth _ _ 0) in Hv. destruct Hv as (i & Hi & <-). rewrite Nd by lia. apply Z.mod_pos_bound. destruct c; cbn; lia.
Qed.
Lemma gray_range c x k : length (get_levels c) = (2 ^ k)%nat -> Forall (fun v => 0 <= v < Z.of_nat (length (get_levels c))) x ->
  exists d, decoding_gray c (vec x) = Ok (vec d) /\ length d = length x /\ Forall (fun v => 0 <= v < Z.of_nat (length (get_levels c))) d.
Proof.
  intros K F. set (tb := if (1 <? ceil_log2 (length (get_levels c)))%nat then get_gray_level_vec (length (get_levels c)) else [0; 1]).
  assert (T : (length (get_levels c) <= length tb)%nat /\ Forall (fun v => 0 <= v < Z.of_nat (length (get_levels c))) (firstn (length (get_levels c)) tb)).
  { unfold tb. destruct c; try (vm_compute; split; [lia|repeat constructor; intros X; discriminate X]).
    exfalso. cbn in K. destruct k as [|[|[|k]]]; cbn [Nat.pow] in K; try discriminate K; nia. }
  destruct T as (T1 & T2). exists (map (fun v => nth (Z.to_nat v) tb 0) x). rewrite map_length. split; [|split; [reflexivity|]].
  - unfold decoding_gray. fold tb. cbn [data shape vec]. unfold np_take. rewrite (map_res_ok _ (fun v => nth (Z.to_nat v) tb 0)); [cbn [bind]; unfold vec; now rewrite map_length|].
    intros v Hv. rewrite Forall_forall in F. specialize (F v Hv). rewrite <- (Z2Nat.id v) at 1 by lia. apply np_get_nth. lia.
  - apply Forall_forall. intros w Hw. apply in_map_iff in Hw. destruct Hw as (v & <- & Hv). rewrite Forall_forall in F, T2. specialize (F v Hv). apply T2. rewrite <- (nth_firstn _ (length (get_levels c))) by lia. apply nth_In. rewrite firstn_length. lia.
Qed.
Lemma binary_returns cd L y : binary_stage cd L -> bits y -> length y = L -> exists b, dec_binary cd y = Done (Ok b).
Proof.
  intros [(ln & mb & u & BC & EL)|[(C & HL)|(C & c & G & HS & HT & HV & T)]] B Ly.
  - destruct (block_decoder cd ln mb BC) as (g & _ & _ & _ & D). rewrite (D y u B) by congruence. eauto.
  - destruct (diff_range OOK y) as (d & E & _); [intros ->; cbn in Ly; lia|]. use_codes C. chain. unfold flat. rewrite E. cbn [bind obind data vec]. eauto.
  - destruct (viterbi_total c HS HT HV y (chunk_size cd) B) as (d & last & p & E & _); [lia|lia|]. use_codes C. chain. unfold dec_conv. rewrite E. cbn [bind obind fst]. eauto.
Qed.
Lemma symcode_range cd k c (s : list Z) : symbol_stage cd c k (length s) -> s <> [] -> Forall (fun v => 0 <= v < Z.of_nat (2 ^ k)) s ->
  exists x, dec_symcode cd s = Done (Ok x) /\ length x = length s /\ Forall (fun v => 0 <= v < Z.of_nat (2 ^ k)) x.
Proof.
  intros (_ & _ & _ & _ & GC) Ns F. unfold dec_symcode.
  assert (A : exists x, step (c_gray cd) (flat (decoding_differential (constel cd))) s = Done (Ok x) /\ length x = length s /\ Forall (fun v => 0 <= v < Z.of_nat (2 ^ k)) x).
  { destruct (c_gray cd) eqn:G; cbn [step]; [|exists s; auto]. rewrite <- GC by auto. destruct (diff_range (constel cd) s Ns) as (d & E & L & R). exists d. unfold flat. rewrite E. cbn [bind data vec]. auto. }
  destruct A as (x & E & Lx & Fx). rewrite E. cbn [obind]. destruct (c_diff cd) eqn:D; cbn [step]; [|exists x; auto].
  rewrite <- GC in Fx by auto. destruct (gray_range (constel cd) x k) as (d & Ed & Ld & Fd); [auto|exact Fx|]. exists d. unfold flat. rewrite Ed. cbn [bind data vec]. rewrite <- GC by auto. split; [reflexivity|]. split; [congruence|exact Fd].
Qed.
Lemma hears_all cd c k N : (1 <= N)%nat -> symbol_stage cd c k N -> binary_stage cd (N * k) -> hears cd c N.
Proof.
  intros HN SS BS s Ls F. assert (SS' := SS). destruct SS' as (Hk & HB & HL & HF & _). subst N. assert (Ns : s <> []) by (intros ->; cbn in HN; lia). rewrite HL in F.
  destruct (symcode_range cd k c s SS Ns F) as (x & E & Lx & Fx). unfold decoder. rewrite E. cbn [obind]. rewrite (dec_rows cd k) by (auto; unfold row_flags; now rewrite Lx). cbn [obind].
  apply (binary_returns cd (length s * k)); [exact BS|apply line_bits; exact Fx|]. fold (line cd k x). rewrite line_length. congruence.
Qed.
(** * Encoders *)
Lemma res_length {A B} (f : A -> res B) : forall l r, map_res f l = Ok r -> length r = length l.
Proof.
  induction l as [|a l IH]; intros r E; cbn [map_res] in E; [injection E as <-; reflexivity|]. destruct (f a) as [b|]; [|discriminate E]. cbn [bind] in E. destruct (map_res f l) as [bs|]; [|discriminate E]. injection E as <-. cbn [length]. now rewrite (IH bs).
Qed.
Lemma enc_diff_range c x : exists d, coding_differential c (vec x) = vec d /\ length d = length x /\ Forall (fun v => 0 <= v < Z.of_nat (length (get_levels c))) d.
Proof.
  exists (data (coding_differential c (vec x))). split; [apply coding_diff_vec|]. unfold coding_differential. cbn [data vec]. rewrite map_length. split.
  - generalize 0. induction x as [|a x IH]; intros z; cbn [cumsum length]; [reflexivity|]. f_equal. apply IH.
  - apply Forall_forall. intros v Hv. apply in_map_iff in Hv. destruct Hv as (w & <- & _). apply Z.mod_pos_bound. destruct c; cbn; lia.
Qed.
Lemma carries_symbols cd c k nb N : symbol_stage cd c k N -> (forall p, bits p -> length p = nb -> exists y, enc_binary cd p = Done (Ok y) /\ bits y /\ length y = (N * k)%nat) -> carries cd c nb N.
Proof.
  intros (Hk & HB & HL & HF & GC) EB p Bp Lp. destruct (EB p Bp Lp) as (y & Ey & By & Ly). destruct (enc_rows cd k y N Hk HB By Ly) as (s & E1 & _ & E3 & E4).
  unfold encoder. rewrite Ey. cbn [obind]. rewrite E1. cbn [obind]. unfold enc_symcode. rewrite HL.
  assert (F : Forall (fun v => 0 <= v < Z.of_nat (2 ^ k)) s) by (eapply Forall_impl; [|exact E4]; intros v; cbn beta; rewrite <- pow2_nat_Z; auto).
  assert (A : exists x, step (c_diff cd) (fun x => Done (Ok (data (coding_differential (constel cd) (vec x))))) s = Done (Ok x) /\ length x = N /\ Forall (fun v => 0 <= v < Z.of_nat (2 ^ k)) x).
  { destruct (c_diff cd) eqn:D; cbn [step]; [|exists s; auto]. destruct (enc_diff_range (constel cd) s) as (d & E & L & R). exists d. rewrite E. cbn [data vec]. rewrite GC in R by auto. split; [reflexivity|]. split; [congruence|exact R]. }
  destruct A as (x & E & Lx & Fx). rewrite E. cbn [obind]. destruct (c_gray cd) eqn:G; cbn [step]; [|exists x; auto].
  assert (NP : constel cd <> PAM3). { intros X. specialize (GC (or_introl eq_refl)). rewrite X in GC. cbn in GC. destruct k as [|[|[|k']]]; cbn [Nat.pow] in GC; try discriminate GC; nia. }
  destruct (gray_roundtrip (constel cd) (vec x) NP) as (q & Eq & Sq & Fq & _); [now rewrite GC by auto|]. unfold flat. rewrite Eq. cbn [bind]. exists (data q). split; [reflexivity|]. rewrite GC in Fq by auto. split; [|exact Fq].
  unfold coding_gray in Eq. destruct (1 <? _)%nat; [|injection Eq as <-; exact Lx]. destruct (np_take _ _) as [dd|e] eqn:Ed; [|discriminate Eq]. injection Eq as <-. cbn [data vec] in *. unfold np_take in Ed. apply res_length in Ed. congruence.
Qed.
Lemma conv_carries cd c k N g T : symbol_stage cd c k N -> binary_codes cd = codes [6%nat] -> gmat cd = GDict g -> code_shape g -> check_valid_conv [] g = Ok tt -> (1 <= T)%nat ->
  (N * k = T * n_out g)%nat -> carries cd c (T * length (gen g)) N.
Proof.
  intros SS C G HS HV HT EQ. apply (carries_symbols cd c k); [exact SS|]. intros p Bp Lp. assert (Hg := gen_pos g HS). assert (Np : p <> []) by (intros ->; cbn in Lp; nia).
  use_codes C. chain. unfold enc_conv. rewrite (coding_conv_eq g p None); auto; [|now apply (check_any [])]. eexists. split; [reflexivity|]. split; [apply conv_from_bits|]. rewrite conv_from_length, (conv_steps_mult g p T) by (auto; lia). lia.
Qed.
