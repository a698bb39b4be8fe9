(** Proofs about the example link with codes: received symbols, decoded chunk by chunk. *)
From Coq Require Import Reals Lra Lia String.
From Verif Require Import Py PyQ B_list B_qc M_aux M_symbol M_coding M_linear M_sim S_sim P_sim P_simcode M_simcheck M_rxloop M_link P_fulldig.
From Verif Require Import S_coding P_aux P_coding P_bipolar S_linear P_linear P_symbol S_full P_full S_coded.
From Coq Require Import QArith Qround Qcanon.
Import List.
Open Scope Z_scope.

(** * Symbols and line bits *)
Definition line (cd : coding_data) (k : nat) (r : list Z) : list Z := concat (map (sym_bits cd k) r).
Lemma line_length cd k r : length (line cd k r) = (length r * k)%nat.
Proof.
  unfold line. rewrite (concat_length_const k); [now rewrite map_length|]. apply Forall_forall. intros x Hx. apply in_map_iff in Hx. destruct Hx as (v & <- & _). apply sym_bits_length.
Qed.
Lemma line_app cd k a b : line cd k (a ++ b) = line cd k a ++ line cd k b.
Proof. unfold line. now rewrite map_app, concat_app. Qed.
Lemma line_firstn cd k q x : line cd k (firstn q x) = firstn (q * k) (line cd k x).
Proof. apply firstn_rows. apply sym_bits_length. Qed.
Lemma line_bits cd k r : Forall (fun v => 0 <= v < Z.of_nat (2 ^ k)) r -> bits (line cd k r).
Proof.
  intros H. apply bits_concat, Forall_forall. intros x Hx. apply in_map_iff in Hx. destruct Hx as (v & <- & Hv). rewrite Forall_forall in H. specialize (H v Hv). unfold sym_bits. destruct (Nat.eqb_spec k 1) as [->|K1].
  - change (Z.of_nat (2 ^ 1)) with 2 in H. constructor; [|constructor]. unfold isbit. destruct (pn_inv _); lia.
  - apply unmod_row_bits, lsb_bits_bits.
Qed.
Lemma decoder_line cd c k n r : whole_symbols cd c k n -> length r = n -> decoder cd r = dec_binary cd (line cd k r).
Proof.
  intros ((G & D) & Hk & B & _ & F) L. unfold decoder, dec_symcode. rewrite G, D. cbn [step obind]. rewrite (dec_rows cd k) by (auto; unfold row_flags; now rewrite L). reflexivity.
Qed.
Lemma encoder_line cd c k n p y : whole_symbols cd c k n -> enc_binary cd p = Done (Ok y) -> bits y -> length y = (n * k)%nat ->
  exists s, encoder cd p = Done (Ok s) /\ line cd k s = y /\ length s = n /\ Forall (fun v => 0 <= v < Z.of_nat (length (get_levels c))) s.
Proof.
  intros ((G & D) & Hk & B & HL & F) E By L. destruct (enc_rows cd k y n Hk B By L) as (s & E1 & E2 & E3 & E4). exists s. rewrite HL, pow2_nat_Z. repeat split; auto.
  unfold encoder. rewrite E. cbn [obind]. rewrite E1. unfold enc_symcode. rewrite G, D. reflexivity.
Qed.
Lemma whole_fills cd c k n : whole_symbols cd c k n -> fills_symbols cd (n * k).
Proof.
  intros (_ & Hk & B & _ & F). destruct (Nat.eq_dec k 1) as [->|K]; [left; exact B|]. right. exists k. split; [lia|]. split; [exact B|]. split; [apply Nat.mod_mul; lia|].
  intros E. destruct F as [F|[F|F]]; [lia|exfalso; apply F; nia|exact F].
Qed.

(** * Decoders that work block by block *)
Definition rows {B} (w : nat) (g : list Z -> list B) (y : list Z) : list B := concat (map g (chunks w y)).
Lemma chunks_app {A} w (a b : list A) t : (0 < w)%nat -> length a = (t * w)%nat -> chunks w (a ++ b) = chunks w a ++ chunks w b.
Proof.
  intros Hw. revert a. induction t as [|t IH]; intros a L.
  - destruct a; [|discriminate L]. unfold chunks at 2. cbn [length]. rewrite Nat.div_0_l by lia. reflexivity.
  - cbn [Nat.mul] in L. rewrite (chunks_cons w (a ++ b)), (chunks_cons w a) by (rewrite ?app_length; lia). cbn [app]. rewrite firstn_app, skipn_app. replace (w - length a)%nat with 0%nat by lia. cbn [firstn skipn]. rewrite app_nil_r. f_equal.
    apply IH. rewrite skipn_length. lia.
Qed.
Lemma rows_app {B} w (g : list Z -> list B) a b t : (0 < w)%nat -> length a = (t * w)%nat -> rows w g (a ++ b) = rows w g a ++ rows w g b.
Proof. intros Hw L. unfold rows. now rewrite (chunks_app w a b t), map_app, concat_app. Qed.
Lemma rows_length {B} w (g : list Z -> list B) m a t : (0 < w)%nat -> (forall r, length r = w -> bits r -> length (g r) = m) -> bits a -> length a = (t * w)%nat -> length (rows w g a) = (t * m)%nat.
Proof.
  intros Hw G Ba L. unfold rows. rewrite (concat_length_const m).
  - rewrite map_length, chunks_count, L, Nat.div_mul by lia. reflexivity.
  - apply Forall_forall. intros x Hx. apply in_map_iff in Hx. destruct Hx as (r & <- & Hr). pose proof (chunks_rows w a Hw) as R. pose proof (chunks_bits w a Ba) as R2. rewrite Forall_forall in R, R2. apply G; [now apply R|now apply R2].
Qed.
Lemma rows_firstn {B} w (g : list Z -> list B) m x t : (0 < w)%nat -> (forall r, length r = w -> bits r -> length (g r) = m) -> bits x -> (t * w <= length x)%nat -> rows w g (firstn (t * w) x) = firstn (t * m) (rows w g x).
Proof.
  intros Hw G Bx L. assert (LF : length (firstn (t * w) x) = (t * w)%nat) by (rewrite firstn_length; lia). pose proof (rows_app w g (firstn (t * w) x) (skipn (t * w) x) t Hw LF) as RA. rewrite firstn_skipn in RA. rewrite RA.
  assert (BF : bits (firstn (t * w) x)) by now apply Forall_firstn. rewrite firstn_app, (rows_length w g m _ t Hw G BF LF), Nat.sub_diag. cbn [firstn]. rewrite app_nil_r. symmetry. apply firstn_all2. rewrite (rows_length w g m _ t Hw G BF LF). lia.
Qed.
(** The codes of [block_code]. *)
Lemma is_int_red q : is_int (Qred q) = true -> inject_Z (Qfloor (Qred q)) = Qred q.
Proof.
  intros H. apply Qeq_bool_iff in H. rewrite <- (Qred_involutive q) at 2. rewrite <- (Qred_complete _ _ H).
  unfold inject_Z, Qred. set (z := Qfloor _). pose proof (Z.ggcd_gcd z 1) as G1. pose proof (Z.ggcd_correct_divisors z 1) as G2. rewrite Z.gcd_1_r in G1. destruct (Z.ggcd z 1) as (g & a & b). cbn [fst snd] in *. subst g. destruct G2 as [A1 A2]. rewrite Z.mul_1_l in A1, A2. subst a b. reflexivity.
Qed.
Lemma to_ints_red l : (forall q, In q l -> Qred q = q) -> forall y, to_ints l = Some y -> map inject_Z y = l.
Proof.
  intros R y. unfold to_ints. destruct (forallb is_int l) eqn:E; [|discriminate]. intros H. injection H as <-. rewrite forallb_forall in E. rewrite map_map. rewrite <- (map_id l) at 2. apply map_ext_in. intros q Hq. rewrite <- (R q Hq) at 1. rewrite <- (R q Hq) at 2. apply is_int_red. rewrite R by auto. now apply E.
Qed.
Lemma concat_single {A B} (f : A -> B) l : concat (map (fun r => [f r]) l) = map f l.
Proof. induction l as [|a l IH]; [reflexivity|]. cbn [map concat app]. now rewrite IH. Qed.
Lemma block_decoder cd ln mb : block_code cd ln mb -> exists g : list Z -> list Q, (0 < ln)%nat /\ (forall r, length r = ln -> bits r -> length (g r) = mb) /\
  (binary_codes cd = codes [1%nat] -> forall r, g r = [manch_value r]) /\
  forall y u, bits y -> length y = (u * ln)%nat -> dec_binary cd y = Done (Ok (rows ln g y)).
Proof.
  intros [(C & -> & ->)|[([C|C] & -> & ->)|(C & Hm & Hl & G & HG & BG & SG & WG & _)]].
  - exists (map inject_Z). split; [lia|]. split; [intros r Hr _; now rewrite map_length|]. split; [rewrite C; discriminate|]. intros y u By Ly. use_codes C. chain. f_equal. f_equal. unfold rows. rewrite <- concat_map, chunks_concat_full by lia. rewrite Nat.div_1_r, Nat.mul_1_r, firstn_all. reflexivity.
  - exists (fun r => [manch_value r]). split; [lia|]. split; [reflexivity|]. split; [reflexivity|]. intros y u By Ly. use_codes C. unfold dec_binary. rewrite Hbd, Hma. cbn [step obind].
    rewrite manch_dec; [|exact By|discriminate|unfold wf_nda, vec, size; cbn; lia|cbn [shape vec last_dim last]; unfold last_dim; cbn [last]; rewrite Ly, Nat.mul_comm; apply even_double]. cbn [data vec]. unfold rows. rewrite concat_single.
    set (w := map manch_value (chunks 2 y)). destruct (to_ints w) as [z|] eqn:E.
    + unfold dec_rest. rewrite Hbi, Hml, Hdm, Hli, Hco. cbn [step obind]. do 2 f_equal. apply to_ints_red; [|exact E]. intros q Hq. unfold w in Hq. apply in_map_iff in Hq. destruct Hq as (r & <- & _). unfold manch_value. apply Qred_involutive.
    + unfold dec_rest_half. rewrite Hbi, Hml, Hdm, Hli, Hco. reflexivity.
  - exists (fun r => [inject_Z (1 - Z.abs (nth 1 r 0 - nth 0 r 0))]). split; [lia|]. split; [reflexivity|]. split; [rewrite C; discriminate|]. intros y u By Ly. use_codes C. chain. unfold flat.
    rewrite dm_dec; [|exact By|discriminate|unfold wf_nda, vec, size; cbn; lia|unfold last_dim; cbn [shape vec last]; rewrite Ly, Nat.mul_comm; apply even_double]. cbn [data vec bind obind]. unfold rows. rewrite concat_single, map_map. reflexivity.
  - assert (LG : length (data G) = (mb * ln)%nat) by (unfold wf_nda in WG; rewrite WG, SG; unfold size; cbn; lia). set (cb := map (codeword mb ln (data G)) (get_bin_perm mb)).
    assert (BL : forall r, length r = ln -> bits r -> exists w, ml_block (get_bin_perm mb) cb r = Ok w /\ length w = mb).
    { intros r Lr Br. destruct (ml_block_ok ln cb (codebook_ne mb ln (data G)) (codebook_Forall mb ln (data G)) (get_bin_perm mb) r) as (i & F & E); auto; [unfold cb; now rewrite map_length|]. exists (nth i (get_bin_perm mb) []). split; [exact E|].
      destruct F as (Hi & _). unfold cb in Hi. rewrite map_length in Hi. apply (P_aux.get_bin_perm_In mb), nth_In. exact Hi. }
    set (g := fun r => match ml_block (get_bin_perm mb) cb r with Ok w => w | Raise _ => [] end). exists (fun r => map inject_Z (g r)). split; [exact Hl|].
    split; [intros r Lr Br; destruct (BL r Lr Br) as (w & E & Lw); unfold g; rewrite E, map_length; exact Lw|]. split; [rewrite C; discriminate|]. intros y u By Ly. use_codes C. chain. unfold dec_linear. unfold decoding_linear. rewrite !check_binary_bits by auto. cbn [bind]. rewrite SG, trunc_reshape_ok by auto. cbn [bind]. rewrite linear_codebook_eq by auto. fold cb.
    unfold ml_decoding. rewrite (map_res_ok _ g).
    + cbn [bind obind]. unfold rows. rewrite concat_map, map_map. reflexivity.
    + intros r Hr. pose proof (chunks_rows ln y Hl) as R. pose proof (chunks_bits ln y By) as R2. rewrite Forall_forall in R, R2. destruct (BL r (R r Hr) (R2 r Hr)) as (w & E & _). unfold g. now rewrite E.
Qed.
Lemma delivered cd b s : encoder cd b = Done (Ok s) -> delivers (link cd b) b -> decoder cd s = Done (Ok (map inject_Z b)).
Proof. unfold link, delivers. intros ->. cbn [obind]. auto. Qed.
Lemma block_encoder cd ln mb u b : block_code cd ln mb -> bits b -> length b = (u * mb)%nat -> exists y, enc_binary cd b = Done (Ok y) /\ bits y /\ length y = (u * ln)%nat.
Proof.
  intros [(C & -> & ->)|[([C|C] & -> & ->)|(C & Hm & Hl & G & HG & BG & SG & WG & _)]] Bb Lb; use_codes C; chain.
  - exists b. auto.
  - unfold flat. rewrite manch_enc; [|exact Bb|discriminate|unfold wf_nda, vec, size; cbn; lia]. cbn [bind data vec]. eexists. split; [reflexivity|]. split; [now apply mcells_bits|]. rewrite mcells_len. lia.
  - unfold flat. rewrite dm_enc; [|exact Bb|discriminate|unfold wf_nda, vec, size; cbn; lia]. cbn [bind data vec]. eexists. split; [reflexivity|]. split; [apply dm_cells_bits; now left|]. rewrite (concat_length_const 2) by apply dm_cells_rows. rewrite dm_cells_len. lia.
  - unfold enc_linear. destruct (coding_linear_spec mb ln b G Hm Bb BG SG WG) as (y & E & By & Ly & _). rewrite E. exists y. split; [reflexivity|]. split; [exact By|]. rewrite Ly, Lb. f_equal. unfold nblk. replace (u * mb + mb - 1)%nat with (mb - 1 + u * mb)%nat by lia. rewrite Nat.div_add by lia. rewrite Nat.div_small by lia. lia.
Qed.
Lemma block_delivers cd c k n ln mb u b : whole_symbols cd c k n -> block_code cd ln mb -> (n * k = u * ln)%nat -> bits b -> length b = (u * mb)%nat -> delivers (link cd b) b.
Proof.
  intros W BC E Bb Lb. assert (F := whole_fills _ _ _ _ W). rewrite E in F. destruct W as (NS & _). destruct BC as [(C & -> & ->)|[([C|C] & -> & ->)|(C & Hm & Hl & G & HG & BG & SG & WG & Inj)]].
  - apply link_plain; auto. now rewrite Lb.
  - apply link_manchester; auto. rewrite Lb. replace (2 * (u * 1))%nat with (u * 2)%nat by lia. exact F.
  - apply link_diff_manchester; auto. rewrite Lb. replace (2 * (u * 1))%nat with (u * 2)%nat by lia. exact F.
  - apply (link_linear cd b mb ln G); auto; rewrite Lb; [apply Nat.mod_mul; lia|]. rewrite Nat.div_mul by lia. exact F.
Qed.
Lemma block_carries cd c k n ln mb u : whole_symbols cd c k n -> block_code cd ln mb -> (n * k = u * ln)%nat -> carries cd c (u * mb) n.
Proof.
  intros W BC E b Bb Lb. destruct (block_encoder cd ln mb u b BC Bb Lb) as (y & Ey & By & Ly). rewrite <- E in Ly. destruct (encoder_line cd c k n b y W Ey By Ly) as (s & E1 & _ & E3 & E4). eauto.
Qed.
Lemma decode_rows cd (f : list Z -> list Q) : forall rs, (forall r, In r rs -> decoder cd r = Done (Ok (f r))) -> decode_all cd rs = Done (Ok (map f rs)).
Proof.
  induction rs as [|r rs IH]; intros H; cbn [decode_all map]; [reflexivity|]. rewrite (H r (or_introl eq_refl)). cbn [obind]. rewrite IH by (intros x Hx; apply H; now right). reflexivity.
Qed.
Lemma in_rows {A} (P : A -> Prop) (rs : list (list A)) r : In r rs -> Forall P (concat rs) -> Forall P r.
Proof. intros Hr F. rewrite Forall_forall in *. intros v Hv. apply F, in_concat. eauto. Qed.
Lemma encoded_range cd c nb n : carries cd c nb n -> forall bs ss, Forall (fun b => bits b /\ length b = nb) bs -> Forall2 (fun b s => encoder cd b = Done (Ok s)) bs ss ->
  Forall (fun v => 0 <= v < Z.of_nat (length (get_levels c))) (concat ss).
Proof.
  intros CA bs ss F F2. induction F2 as [|b s bs ss E _ IH]; [constructor|]. inversion F as [|? ? [B L] F']; subst. cbn [concat]. apply Forall_app. split; [|auto].
  destruct (CA b B eq_refl) as (s' & E' & _ & R). rewrite E in E'. injection E' as <-. exact R.
Qed.
(** What a block code hands out, in terms of the received line bits. *)
Lemma blocks_stream cd c k N ln mb u q n bs ss rs start : whole_symbols cd c k N -> block_code cd ln mb -> (N * k = u * ln)%nat ->
  Forall (fun b => bits b /\ length b = (u * mb)%nat) bs -> Forall2 (fun b s => encoder cd b = Done (Ok s)) bs ss ->
  length rs = n -> Forall (fun x => length x = N) rs -> length start = q -> Forall (fun v => 0 <= v < Z.of_nat (length (get_levels c))) start ->
  length (concat ss) = (n * N)%nat -> concat rs = firstn (n * N) (start ++ concat ss) ->
  exists (g : list Z -> list Q) ds, (0 < ln)%nat /\ (forall r, length r = ln -> bits r -> length (g r) = mb) /\ (binary_codes cd = codes [1%nat] -> forall r, g r = [manch_value r]) /\
    decode_all cd rs = Done (Ok ds) /\ length ds = n /\ Forall (fun d => length d = (u * mb)%nat) ds /\
    bits (line cd k start) /\ bits (line cd k (concat ss)) /\ rows ln g (line cd k (concat ss)) = map inject_Z (concat bs) /\
    concat ds = rows ln g (firstn (n * (u * ln)) (line cd k start ++ line cd k (concat ss))).
Proof.
  intros W BC EN Fb F2 Lr Fr Ls Rs Lss CR. destruct (block_decoder cd ln mb BC) as (g & Hl & Gl & GM & GD). set (F := fun r => rows ln g (line cd k r)).
  assert (CA := block_carries cd c k N ln mb u W BC EN). assert (RSS := encoded_range cd c _ N CA bs ss Fb F2). assert (HL : length (get_levels c) = (2 ^ k)%nat) by apply W.
  assert (RR : Forall (fun v => 0 <= v < Z.of_nat (length (get_levels c))) (concat rs)) by (rewrite CR; apply Forall_firstn, Forall_app; auto).
  assert (DE : forall r, length r = N -> Forall (fun v => 0 <= v < Z.of_nat (length (get_levels c))) r -> decoder cd r = Done (Ok (F r)) /\ length (F r) = (u * mb)%nat).
  { intros r L R. rewrite (decoder_line cd c k N r W L). rewrite HL in R. assert (LL : length (line cd k r) = (u * ln)%nat) by (rewrite line_length, L; exact EN). split; [apply (GD _ u); [now apply line_bits|exact LL]|]. unfold F. apply (rows_length ln g mb _ u Hl Gl); [now apply line_bits|exact LL]. }
  exists g, (map F rs). rewrite Forall_forall in Fr. split; [exact Hl|]. split; [exact Gl|]. split; [exact GM|]. split; [apply decode_rows; intros r Hr; apply DE; [now apply Fr|now apply (in_rows _ rs)]|]. split; [now rewrite map_length|].
  split. { apply Forall_forall. intros d Hd. apply in_map_iff in Hd. destruct Hd as (r & <- & Hr). apply DE; [now apply Fr|now apply (in_rows _ rs)]. }
  rewrite HL in *. split; [now apply line_bits|]. split; [now apply line_bits|]. split.
  - clear - Fb F2 EN Hl W BC CA DE HL. induction F2 as [|b s bs ss E _ IH]; [unfold line, rows, chunks; cbn [map concat length]; rewrite Nat.div_0_l by lia; reflexivity|]. inversion Fb as [|? ? [B L] Fb']; subst. cbn [concat]. rewrite line_app, map_app.
    destruct (CA b B L) as (s' & E' & Ls' & Rs'). rewrite E in E'. injection E' as <-. rewrite (rows_app ln g _ _ u Hl) by (rewrite line_length, Ls'; exact EN). rewrite IH by auto. f_equal. assert (X := delivered cd b s E (block_delivers cd c k N ln mb u b W BC EN B L)).
    rewrite HL in Rs'. rewrite (proj1 (DE s Ls' Rs')) in X. injection X as X. exact X.
  - transitivity (rows ln g (line cd k (concat rs))).
    + clear - Fr EN Hl. induction rs as [|r rs IH]; [unfold line, rows, chunks; cbn [map concat length]; rewrite Nat.div_0_l by lia; reflexivity|]. cbn [map concat]. rewrite IH, line_app by (intros; apply Fr; now right). rewrite (rows_app ln g _ _ u Hl); [reflexivity|]. rewrite line_length, Fr by now left. exact EN.
    + rewrite CR, line_firstn, line_app. do 2 f_equal. nia.
Qed.
(** The line code over a delay of whole blocks. *)
Lemma blocks_delayed cd c k N ln mb u t q n bs ss rs start : whole_symbols cd c k N -> block_code cd ln mb -> (N * k = u * ln)%nat -> (q * k = t * ln)%nat ->
  Forall (fun b => bits b /\ length b = (u * mb)%nat) bs -> Forall2 (fun b s => encoder cd b = Done (Ok s)) bs ss ->
  length rs = n -> Forall (fun x => length x = N) rs -> length start = q -> Forall (fun v => 0 <= v < Z.of_nat (length (get_levels c))) start ->
  length (concat ss) = (n * N)%nat -> concat rs = firstn (n * N) (start ++ concat ss) ->
  exists ds st, decode_all cd rs = Done (Ok ds) /\ length ds = n /\ Forall (fun d => length d = (u * mb)%nat) ds /\ length st = (t * mb)%nat /\ concat ds = firstn (n * (u * mb)) (st ++ map inject_Z (concat bs)).
Proof.
  intros W BC EN EQ Fb F2 Lr Fr Ls Rs Lss CR. destruct (blocks_stream cd c k N ln mb u q n bs ss rs start) as (g & ds & Hl & Gl & _ & DA & Ld & Fd & BS & BSS & CS & CD); auto.
  assert (LST : length (line cd k start) = (t * ln)%nat) by (rewrite line_length, Ls; exact EQ). exists ds, (rows ln g (line cd k start)). split; [exact DA|]. split; [exact Ld|]. split; [exact Fd|]. split; [now apply (rows_length ln g mb _ t)|].
  rewrite CD, Nat.mul_assoc. rewrite (rows_firstn ln g mb _ _ Hl Gl); [|apply bits_app; auto|rewrite app_length, !line_length, Lss; nia]. rewrite (rows_app ln g _ _ t Hl LST), CS. f_equal. ring.
Qed.
(** Manchester code over a delay of half a bit: every decision mixes two neighbouring bits. *)
Lemma manchester_half cd c k N u t q n bs ss rs start : whole_symbols cd c k N -> binary_codes cd = codes [1%nat] -> (N * k = u * 2)%nat -> (q * k = t * 2 + 1)%nat ->
  Forall (fun b => bits b /\ length b = (u * 1)%nat) bs -> length bs = n -> Forall2 (fun b s => encoder cd b = Done (Ok s)) bs ss ->
  length rs = n -> Forall (fun x => length x = N) rs -> length start = q -> Forall (fun v => 0 <= v < Z.of_nat (length (get_levels c))) start ->
  length (concat ss) = (n * N)%nat -> concat rs = firstn (n * N) (start ++ concat ss) ->
  exists ds, decode_all cd rs = Done (Ok ds) /\ length ds = n /\ Forall (fun d => length d = u) ds /\
    forall j, (t + 1 <= j < n * u)%nat -> nth j (concat ds) 0%Q = Qred ((2 - nth (j - t - 1) (concat bs) 0 - nth (j - t) (concat bs) 0) # 2).
Proof.
  intros W C EN EQ Fb Lb F2 Lr Fr Ls Rs Lss CR. assert (BC : block_code cd 2 1) by (right; left; auto). destruct (blocks_stream cd c k N 2 1 u q n bs ss rs start W BC EN Fb F2 Lr Fr Ls Rs Lss CR) as (g & ds & _ & _ & GM & DA & Ld & Fd & BS & BSS & _ & CD).
  exists ds. split; [exact DA|]. split; [exact Ld|]. split; [now rewrite Nat.mul_1_r in Fd|]. intros j Hj. rewrite CD. set (x := line cd k start ++ line cd k (concat ss)).
  assert (LSC : length (line cd k start) = (t * 2 + 1)%nat) by (rewrite line_length, Ls; exact EQ). assert (LBC : length (concat bs) = (n * u)%nat) by (rewrite (concat_length_const u), Lb; [reflexivity|]; eapply Forall_impl; [|exact Fb]; intros b [_ L]; lia).
  assert (EL : line cd k (concat ss) = concat (map mcell (concat bs))).
  { clear - F2 Fb W C EN. induction F2 as [|b s bs ss E _ IH]; [reflexivity|]. inversion Fb as [|? ? [B L] Fb']; subst. cbn [concat]. rewrite line_app, map_app, concat_app, IH by auto. f_equal.
    assert (EB : enc_binary cd b = Done (Ok (concat (map mcell b)))). { use_codes C. chain. unfold flat. rewrite manch_enc; [reflexivity|exact B|discriminate|unfold wf_nda, vec, size; cbn; lia]. }
    destruct (encoder_line cd c k N b _ W EB (mcells_bits b B)) as (s' & E1 & E2 & _); [rewrite mcells_len; lia|]. rewrite E in E1. injection E1 as <-. exact E2. }
  assert (LX : length x = (t * 2 + 1 + 2 * (n * u))%nat) by (unfold x; rewrite app_length, LSC, EL, mcells_len, LBC; reflexivity).
  set (y := firstn (n * (u * 2)) x). assert (LY : length y = (n * u * 2)%nat) by (unfold y; rewrite firstn_length, LX; lia).
  unfold rows. rewrite (map_ext _ _ (GM C)), concat_single. rewrite (map_nth_lt _ _ _ []) by (rewrite chunks_count, LY, Nat.div_mul by lia; lia).
  unfold manch_value. assert (NC : forall i, (i < 2)%nat -> nth i (nth j (chunks 2 y) []) 0 = nth (j * 2 + i) x 0).
  { intros i Hi. rewrite chunks_nth by (rewrite LY, Nat.div_mul by lia; lia). rewrite nth_firstn, nth_skipn by lia. unfold y. rewrite nth_firstn by lia. reflexivity. }
  rewrite !NC by lia. unfold x. rewrite !app_nth2 by lia. rewrite LSC, EL, !mcells_nth by lia.
  replace (j * 2 + 0 - (t * 2 + 1))%nat with (1 + 2 * (j - t - 1))%nat by lia. replace (j * 2 + 1 - (t * 2 + 1))%nat with (2 * (j - t))%nat by lia.
  rewrite Nat.even_add_mul_2, even_double. change (Nat.even 1) with false. cbv iota. replace ((1 + 2 * (j - t - 1)) / 2)%nat with (j - t - 1)%nat by (rewrite Nat.mul_comm, Nat.div_add by lia; reflexivity). rewrite Nat.mul_comm, Nat.div_mul by lia.
  do 2 f_equal. lia.
Qed.

(** * A delay of whole chunks *)
Lemma decode_app cd a b : decode_all cd (a ++ b) = obind (decode_all cd a) (fun x => obind (decode_all cd b) (fun y => Done (Ok (x ++ y)))).
Proof.
  induction a as [|r a IH]; cbn [app decode_all obind]; [now destruct (decode_all cd b) as [[?|?]|]|]. rewrite IH. destruct (decoder cd r) as [[d|e]|]; cbn [obind]; auto. destruct (decode_all cd a) as [[x|e]|]; cbn [obind]; auto. destruct (decode_all cd b) as [[y|e]|]; reflexivity.
Qed.
Lemma concat_firstn_rows {A} N (m : list (list A)) n : Forall (fun r => length r = N) m -> firstn (n * N) (concat m) = concat (firstn n m).
Proof.
  intros F. revert n. induction F as [|r m Hr _ IH]; intros [|n]; cbn [concat firstn Nat.mul]; auto; [apply firstn_nil|]. rewrite firstn_app, Hr, (firstn_all2 r) by lia. f_equal. replace (N + n * N - N)%nat with (n * N)%nat by lia. apply IH.
Qed.
Lemma chunks_delayed cd c nb N m n bs ss rs start : (1 <= N)%nat -> carries cd c nb N -> (forall b, bits b -> length b = nb -> delivers (link cd b) b) ->
  Forall (fun b => bits b /\ length b = nb) bs -> Forall2 (fun b s => encoder cd b = Done (Ok s)) bs ss ->
  length rs = n -> Forall (fun x => length x = N) rs -> length start = (m * N)%nat -> concat rs = firstn (n * N) (start ++ concat ss) ->
  exists st, length st = m /\ Forall (fun x => length x = N) st /\ decode_all cd rs = obind (decode_all cd (firstn n st)) (fun d0 => Done (Ok (d0 ++ map (map inject_Z) (firstn (n - m) bs)))).
Proof.
  intros HN CA DL Fb F2 Lr Fr Ls CR. exists (chunks N start). assert (Lst : length (chunks N start) = m) by (rewrite chunks_count, Ls, Nat.div_mul by lia; reflexivity).
  assert (Fst : Forall (fun x => length x = N) (chunks N start)) by (apply chunks_rows; lia). split; [exact Lst|]. split; [exact Fst|].
  assert (Fss : Forall (fun x => length x = N) ss).
  { clear - CA Fb F2. induction F2 as [|b s bs ss E _ IH]; constructor; inversion Fb as [|? ? [B L] Fb']; subst; auto. destruct (CA b B eq_refl) as (s' & E' & L' & _). rewrite E in E'. now injection E' as <-. }
  assert (ER : rs = firstn n (chunks N start ++ ss)).
  { rewrite <- (chunks_of_concat N rs) by (auto; lia). rewrite <- (chunks_of_concat N (firstn n _)); [|lia|apply Forall_firstn, Forall_app; auto]. f_equal. rewrite CR, <- (concat_firstn_rows N) by (apply Forall_app; auto). rewrite concat_app. do 2 f_equal. rewrite chunks_concat_full by lia. rewrite Ls, Nat.div_mul, <- Ls, firstn_all by lia. reflexivity. }
  rewrite ER, firstn_app, Lst, decode_app. replace (decode_all cd (firstn (n - m) ss)) with (Done (Ok (map (map inject_Z) (firstn (n - m) bs)))); [reflexivity|].
  clear - CA DL Fb F2. set (q := (n - m)%nat). clearbody q. revert q. induction F2 as [|b s bs ss E _ IH]; intros [|q]; cbn [firstn map decode_all]; auto. inversion Fb as [|? ? [B L] Fb']; subst.
  rewrite (delivered cd b s E (DL b B eq_refl)). cbn [obind]. rewrite <- (IH Fb' q). reflexivity.
Qed.

(** * Decoders that look at one line digit before *)
Lemma pos_of j L : (1 <= L)%nat -> exists c p, (j = c * L + p)%nat /\ (p < L)%nat /\ (j / L = c)%nat /\ (j mod L = p)%nat.
Proof. intros H. exists (j / L)%nat, (j mod L)%nat. pose proof (Nat.div_mod j L ltac:(lia)). pose proof (Nat.mod_upper_bound j L ltac:(lia)). repeat split; lia. Qed.
Lemma memory_stream cd L (X : list Z -> list Z) (f0 : Z -> Z) (g : Z -> Z -> Z) : (1 <= L)%nat -> forall rs,
  (forall r, In r rs -> length (X r) = L /\ exists d, decoder cd r = Done (Ok (map inject_Z d)) /\ length d = L /\
     forall p, (p < L)%nat -> nth p d 0 = if (p =? 0)%nat then f0 (nth p (X r) 0) else g (nth (p - 1) (X r) 0) (nth p (X r) 0)) ->
  exists ds, decode_all cd rs = Done (Ok (map (map inject_Z) ds)) /\ length ds = length rs /\ Forall (fun d => length d = L) ds /\
    forall j, (j < length rs * L)%nat -> let x := concat (map X rs) in nth j (concat ds) 0 = if (j mod L =? 0)%nat then f0 (nth j x 0) else g (nth (j - 1) x 0) (nth j x 0).
Proof.
  intros HL rs H.
  assert (A : exists ds, decode_all cd rs = Done (Ok (map (map inject_Z) ds)) /\ length ds = length rs /\ Forall (fun d => length d = L) ds /\ forall i, (i < length rs)%nat ->
    forall p, (p < L)%nat -> nth p (nth i ds []) 0 = if (p =? 0)%nat then f0 (nth p (X (nth i rs [])) 0) else g (nth (p - 1) (X (nth i rs [])) 0) (nth p (X (nth i rs [])) 0)).
  { induction rs as [|r rs IH]; [exists []; repeat split; auto; intros i Hi; cbn in Hi; lia|]. destruct IH as (ds & D1 & D2 & D3 & D4); [intros; apply H; now right|]. destruct (H r (or_introl eq_refl)) as (_ & d & E1 & E2 & E3).
    exists (d :: ds). cbn [decode_all]. rewrite E1. cbn [obind]. rewrite D1. cbn [obind map length]. split; [reflexivity|]. split; [lia|]. split; [constructor; auto|]. intros [|i] Hi; cbn [nth]; auto. intros p Hp. apply D4; auto. lia. }
  destruct A as (ds & D1 & D2 & D3 & D4). exists ds. split; [exact D1|]. split; [exact D2|]. split; [exact D3|]. intros j Hj x.
  assert (FX : Forall (fun r => length r = L) (map X rs)) by (apply Forall_forall; intros y Hy; apply in_map_iff in Hy; destruct Hy as (r & <- & Hr); apply H; auto).
  destruct (pos_of j L HL) as (c & p & E & Hp & _ & EM). rewrite EM. assert (Hc : (c < length rs)%nat) by nia. rewrite E. rewrite (concat_const_nth 0 L ds) by (auto; lia). rewrite D4 by auto.
  destruct (Nat.eqb_spec p 0) as [->|P0].
  - unfold x. rewrite (concat_const_nth 0 L) by (auto; rewrite map_length; lia). rewrite (map_nth_lt _ _ _ []) by auto. reflexivity.
  - unfold x. replace (c * L + p - 1)%nat with (c * L + (p - 1))%nat by lia. rewrite !(concat_const_nth 0 L) by (auto; try rewrite map_length; lia). rewrite (map_nth_lt _ _ _ []) by auto. reflexivity.
Qed.
Lemma memory_delayed cd c k N L (X E : list Z -> list Z) f0 g q n bs ss rs start : (1 <= L)%nat -> (N * k = L)%nat -> carries cd c L N ->
  (forall a b, X (a ++ b) = X a ++ X b) -> (forall r, length (X r) = (length r * k)%nat) ->
  (forall r, length r = N -> Forall (fun v => 0 <= v < Z.of_nat (length (get_levels c))) r -> exists d, decoder cd r = Done (Ok (map inject_Z d)) /\ length d = L /\
     forall p, (p < L)%nat -> nth p d 0 = if (p =? 0)%nat then f0 (nth p (X r) 0) else g (nth (p - 1) (X r) 0) (nth p (X r) 0)) ->
  (forall b s, bits b -> length b = L -> encoder cd b = Done (Ok s) -> X s = E b) -> (forall b, length (E b) = length b) ->
  Forall (fun b => bits b /\ length b = L) bs -> length bs = n -> Forall2 (fun b s => encoder cd b = Done (Ok s)) bs ss ->
  length rs = n -> Forall (fun x => length x = N) rs -> length start = q -> Forall (fun v => 0 <= v < Z.of_nat (length (get_levels c))) start ->
  length (concat ss) = (n * N)%nat -> concat rs = firstn (n * N) (start ++ concat ss) ->
  exists ds, decode_all cd rs = Done (Ok (map (map inject_Z) ds)) /\ length ds = n /\ Forall (fun d => length d = L) ds /\
    let at_ i := nth (i mod L) (E (nth (i / L) bs [])) 0 in
    forall i, (q * k + i < n * L)%nat -> (((q * k + i) mod L = 0)%nat -> nth (q * k + i) (concat ds) 0 = f0 (at_ i)) /\
      (((q * k + i) mod L <> 0)%nat -> (1 <= i)%nat -> nth (q * k + i) (concat ds) 0 = g (at_ (i - 1)%nat) (at_ i)) /\
      (((q * k + i) mod L <> 0)%nat -> exists a, nth (q * k + i) (concat ds) 0 = g a (at_ i)).
Proof.
  intros HL NK CA XA XL DE EE EL Fb Lb F2 Lr Fr Ls Rs Lss CR. assert (RSS := encoded_range cd c _ N CA bs ss Fb F2).
  assert (RR : Forall (fun v => 0 <= v < Z.of_nat (length (get_levels c))) (concat rs)) by (rewrite CR; apply Forall_firstn, Forall_app; auto). rewrite Forall_forall in Fr.
  destruct (memory_stream cd L X f0 g HL rs) as (ds & D1 & D2 & D3 & D4). { intros r Hr. split; [rewrite XL, Fr; auto|]. apply DE; [now apply Fr|now apply (in_rows _ rs)]. }
  exists ds. split; [exact D1|]. split; [congruence|]. split; [exact D3|]. intros at_ i Hi.
  assert (X0 : X [] = []) by (specialize (XL []); destruct (X []); [reflexivity|discriminate XL]).
  assert (XC : forall l, concat (map X l) = X (concat l)) by (induction l as [|a l IH]; cbn [map concat]; [now rewrite X0|now rewrite XA, IH]).
  assert (XF : forall w x, (w <= length x)%nat -> X (firstn w x) = firstn (w * k) (X x)).
  { intros w x Hw. pose proof (XA (firstn w x) (skipn w x)) as Y. rewrite firstn_skipn in Y. rewrite Y. rewrite firstn_app, XL, firstn_length, Nat.min_l by exact Hw. rewrite Nat.sub_diag. cbn [firstn]. rewrite app_nil_r. symmetry. apply firstn_all2. rewrite XL, firstn_length, Nat.min_l by exact Hw. lia. }
  assert (XS : X (concat ss) = concat (map E bs)).
  { rewrite <- XC. f_equal. clear - F2 EE Fb. induction F2 as [|b s bs ss H _ IH]; [reflexivity|]. inversion Fb as [|? ? [B L'] Fb']; subst. cbn [map]. f_equal; auto. }
  assert (FE : Forall (fun r => length r = L) (map E bs)). { apply Forall_forall. intros y Hy. apply in_map_iff in Hy. destruct Hy as (b & <- & Hb). rewrite EL. rewrite Forall_forall in Fb. now apply Fb. }
  assert (V : forall w, (q * k + w < n * L)%nat -> nth (q * k + w) (concat (map X rs)) 0 = at_ w).
  { intros w Hw. rewrite XC, CR, XF by (rewrite app_length, Lss; lia). rewrite nth_firstn by nia. rewrite XA, app_nth2, XL, Ls by (rewrite XL, Ls; lia). replace (q * k + w - q * k)%nat with w by lia. rewrite XS.
    unfold at_. destruct (pos_of w L HL) as (a & b & E0 & Hb & -> & ->). assert (Ha : (a < n)%nat) by nia. rewrite E0, (concat_const_nth 0 L) by (auto; rewrite map_length; lia). rewrite (map_nth_lt _ _ _ []) by lia. reflexivity. }
  rewrite D4 by (rewrite Lr; exact Hi). split; [|split].
  - intros ->. cbn [Nat.eqb]. now rewrite V.
  - intros NZ I1. rewrite (proj2 (Nat.eqb_neq _ _) NZ). replace (q * k + i - 1)%nat with (q * k + (i - 1))%nat by lia. rewrite !V by lia. reflexivity.
  - intros NZ. rewrite (proj2 (Nat.eqb_neq _ _) NZ). rewrite V by lia. eauto.
Qed.
(** Binary differential code. *)
Definition dcode (b : list Z) : list Z := data (coding_differential OOK (vec b)).
Lemma dcode_length b : length (dcode b) = length b.
Proof. apply (coding_diff_length OOK (vec b)). Qed.
Lemma dcode_nth b p : (p < length b)%nat -> nth p (dcode b) 0 = parity (firstn (S p) b).
Proof. intros H. unfold dcode. rewrite coding_diff_nth by exact H. reflexivity. Qed.
Lemma diff_enc cd b : binary_codes cd = codes [0%nat] -> enc_binary cd b = Done (Ok (dcode b)).
Proof. intros C. use_codes C. chain. reflexivity. Qed.
Lemma diff_carries cd c k N : whole_symbols cd c k N -> binary_codes cd = codes [0%nat] -> carries cd c (N * k) N.
Proof.
  intros W C b B L. destruct (encoder_line cd c k N b (dcode b) W (diff_enc cd b C)) as (s & E1 & _ & E3 & E4); [apply mod2_bits|now rewrite dcode_length|]. eauto.
Qed.
Lemma parity_bit b : parity b = 0 \/ parity b = 1.
Proof. unfold parity. pose proof (Z.mod_pos_bound (fold_right Z.add 0 b) 2). lia. Qed.
Lemma parity_S b i : (i < length b)%nat -> bits b -> parity (firstn (S i) b) = (parity (firstn i b) + nth i b 0) mod 2.
Proof. intros H B. unfold parity. pose proof (sumZ_firstn_S b i H) as E. unfold sumZ in E. rewrite E. rewrite Z.add_mod_idemp_l by lia. reflexivity. Qed.
Lemma diff_dec cd c k N r : whole_symbols cd c k N -> binary_codes cd = codes [0%nat] -> (1 <= N)%nat -> length r = N ->
  exists d, decoder cd r = Done (Ok (map inject_Z d)) /\ length d = (N * k)%nat /\
    forall p, (p < N * k)%nat -> nth p d 0 = if (p =? 0)%nat then (nth p (line cd k r) 0) mod 2 else (nth p (line cd k r) 0 - nth (p - 1) (line cd k r) 0) mod 2.
Proof.
  intros W C HN L. rewrite (decoder_line cd c k N r W L). assert (Hk : (1 <= k)%nat) by apply W. assert (LL := line_length cd k r). rewrite L in LL.
  destruct (decoding_diff_vec OOK (line cd k r)) as (d & E & Ld & Nd). { intros X. rewrite X in LL. cbn in LL. nia. }
  exists d. use_codes C. chain. unfold flat. rewrite E. cbn [bind obind data vec]. split; [reflexivity|]. split; [lia|]. intros p Hp. rewrite Nd by lia. change (Z.of_nat (length (get_levels OOK))) with 2. destruct (p =? 0)%nat; [now rewrite Z.sub_0_r|reflexivity].
Qed.
Lemma prev_pos i L : (1 <= L)%nat -> (i mod L <> 0)%nat -> ((i - 1) mod L = i mod L - 1 /\ (i - 1) / L = i / L)%nat.
Proof. intros H N. destruct (pos_of i L H) as (c & p & E & Hp & E1 & E2). rewrite E2, E1 in *. assert (p - 1 < L)%nat by lia. split; [symmetry; apply (Nat.mod_unique (i - 1) L c); lia|symmetry; apply (Nat.div_unique (i - 1) L c (p - 1)); lia]. Qed.
Lemma prev_pos0 i L : (1 <= L)%nat -> (i mod L = 0)%nat -> (1 <= i)%nat -> ((i - 1) mod L = L - 1 /\ (i - 1) / L = i / L - 1 /\ 1 <= i / L)%nat.
Proof. intros H N I. destruct (pos_of i L H) as (c & p & E & Hp & E1 & E2). rewrite E2, E1 in *. subst p. assert (1 <= c)%nat by (destruct c; lia). split; [symmetry; apply (Nat.mod_unique (i - 1) L (c - 1)); nia|]. split; [symmetry; apply (Nat.div_unique (i - 1) L (c - 1) (L - 1)); nia|assumption]. Qed.
Lemma chunk_bit (bs : list (list Z)) L n i : (1 <= L)%nat -> Forall (fun b => bits b /\ length b = L) bs -> length bs = n -> (i < n * L)%nat ->
  bits (nth (i / L) bs []) /\ length (nth (i / L) bs []) = L /\ nth i (concat bs) 0 = nth (i mod L) (nth (i / L) bs []) 0 /\ (i mod L < L)%nat.
Proof.
  intros HL F Lb Hi. destruct (pos_of i L HL) as (c & p & E & Hp & E1 & E2). rewrite E1, E2. assert (Hc : (c < n)%nat) by nia. rewrite Forall_forall in F. destruct (F (nth c bs [])) as [B L']; [apply nth_In; lia|]. split; [exact B|]. split; [exact L'|]. split; [|exact Hp].
  rewrite E. apply (concat_const_nth 0 L); auto; [|lia]. apply Forall_forall. intros r Hr. now apply F.
Qed.
Lemma diff_delayed cd c k N q n bs ss rs start : whole_symbols cd c k N -> binary_codes cd = codes [0%nat] -> (1 <= N)%nat ->
  let L := (N * k)%nat in
  Forall (fun b => bits b /\ length b = L) bs -> length bs = n -> Forall2 (fun b s => encoder cd b = Done (Ok s)) bs ss ->
  length rs = n -> Forall (fun x => length x = N) rs -> length start = q -> Forall (fun v => 0 <= v < Z.of_nat (length (get_levels c))) start ->
  length (concat ss) = (n * N)%nat -> concat rs = firstn (n * N) (start ++ concat ss) ->
  exists ds, decode_all cd rs = Done (Ok (map (map inject_Z) ds)) /\ length ds = n /\ Forall (fun d => length d = L) ds /\
    forall i, (q * k + i < n * L)%nat -> let j := (q * k + i)%nat in let b := nth (i / L) bs [] in
      ((j mod L <> 0)%nat -> (i mod L <> 0)%nat -> nth j (concat ds) 0 = nth i (concat bs) 0) /\
      ((j mod L = 0)%nat -> nth j (concat ds) 0 = parity (firstn (S (i mod L)) b)) /\
      ((j mod L <> 0)%nat -> (i mod L = 0)%nat -> (1 <= i)%nat -> nth j (concat ds) 0 = (nth i (concat bs) 0 + parity (nth (i / L - 1) bs [])) mod 2).
Proof.
  intros W C HN L Fb Lb F2 Lr Fr Ls Rs Lss CR. assert (Hk : (1 <= k)%nat) by apply W. assert (HL : (1 <= L)%nat) by (unfold L; nia).
  destruct (memory_delayed cd c k N L (line cd k) dcode (fun v => v mod 2) (fun a b => (b - a) mod 2) q n bs ss rs start) as (ds & D1 & D2 & D3 & D4); auto using dcode_length, line_app, line_length.
  - now apply diff_carries.
  - intros r Lr' _. now apply (diff_dec cd c).
  - intros b s B Lb' E. destruct (encoder_line cd c k N b (dcode b) W (diff_enc cd b C)) as (s' & E1 & E2 & _); [apply mod2_bits|now rewrite dcode_length|]. rewrite E in E1. injection E1 as <-. exact E2.
  - exists ds. split; [exact D1|]. split; [exact D2|]. split; [exact D3|]. intros i Hi j b. destruct (D4 i Hi) as (Z0 & Z1 & _). destruct (chunk_bit bs L n i HL Fb Lb ltac:(lia)) as (Bb & LB & EB & MB). fold b in Bb, LB, EB, Z0, Z1. rewrite EB.
    pose proof (bits_nth b (i mod L) Bb) as Bi. unfold isbit in Bi. pose proof (parity_S b (i mod L) ltac:(lia) Bb) as PS. rewrite dcode_nth in Z0, Z1 by lia. split; [|split].
    + intros J I. destruct (prev_pos i L HL I) as [P1 P2]. assert (I1 : (1 <= i)%nat) by (destruct i; [rewrite Nat.mod_0_l in I by lia; lia|lia]). unfold j. rewrite Z1 by auto. rewrite P1, P2. fold b. rewrite dcode_nth by lia. replace (S (i mod L - 1)) with (i mod L)%nat by lia. rewrite PS. pose proof (parity_bit (firstn (i mod L) b)). lia.
    + intros J. unfold j. rewrite Z0 by exact J. pose proof (parity_bit (firstn (S (i mod L)) b)). lia.
    + intros J I I1. destruct (prev_pos0 i L HL I I1) as (P1 & P2 & P3). unfold j. rewrite Z1 by auto. rewrite P1, P2. destruct (chunk_bit bs L n (i - 1) HL Fb Lb ltac:(lia)) as (_ & LP & _). rewrite P2 in LP. rewrite dcode_nth by lia. replace (S (L - 1)) with (length (nth (i / L - 1) bs [])) by lia. rewrite firstn_all. rewrite PS, I. cbn [firstn]. change (parity []) with 0. rewrite I in Bi. pose proof (parity_bit (nth (i / L - 1) bs [])). lia.
Qed.

(** * Ternary line codes *)
Definition tline (cd : coding_data) (r : list Z) : list Z := map (fun v => if pn_inv (cflags cd) then 2 - v else v) r.
Lemma tline_app cd a b : tline cd (a ++ b) = tline cd a ++ tline cd b.
Proof. apply map_app. Qed.
Lemma tline_length cd r : length (tline cd r) = (length r * 1)%nat.
Proof. unfold tline. rewrite map_length. lia. Qed.
Lemma tline_tline cd r : tline cd (tline cd r) = r.
Proof. unfold tline. rewrite map_map. rewrite <- (map_id r) at 2. apply map_ext. intros v. destruct (pn_inv _); lia. Qed.
Lemma tline_range cd r : Forall (fun v => 0 <= v < 3) r -> Forall (fun v => 0 <= v < 3) (tline cd r).
Proof. intros H. unfold tline. apply Forall_map. eapply Forall_impl; [|exact H]. intros v Hv. cbn beta in Hv. destruct (pn_inv _); lia. Qed.
Lemma ternary_symbols_eq cd c y : ternary_symbols cd c -> enc_symbols cd y = Ok (tline cd y) /\ dec_symbols cd y = Ok (tline cd y).
Proof.
  intros (_ & [B0 B1] & _ & PN). unfold enc_symbols, dec_symbols, tline. rewrite (over1_false _ B1). destruct (is_int (bps cd)) eqn:I.
  - apply Qeq_bool_iff in I. assert (F : Qfloor (bps cd) = 1).
    { assert (F1 : (0 < inject_Z (Qfloor (bps cd)))%Q) by (rewrite I; exact B0). assert (F2 : (inject_Z (Qfloor (bps cd)) <= 1)%Q) by (rewrite I; exact B1). unfold Qlt, Qle, inject_Z in F1, F2. cbn [Qnum Qden] in F1, F2. lia. }
    rewrite F in I. assert (P : pn_inv (cflags cd) = false) by (apply PN; symmetry; exact I). rewrite P, map_id. auto.
  - destruct (pn_inv (cflags cd)); rewrite ?map_id; auto.
Qed.
Lemma ternary_encoder cd c b y : ternary_symbols cd c -> enc_binary cd b = Done (Ok y) -> encoder cd b = Done (Ok (tline cd y)).
Proof.
  intros T E. destruct (ternary_symbols_eq cd c y T) as [E1 _]. destruct T as ((G & D) & _). unfold encoder. rewrite E. cbn [obind]. rewrite E1. cbn [obind]. unfold enc_symcode. rewrite G, D. reflexivity.
Qed.
Lemma ternary_decoder cd c r : ternary_symbols cd c -> decoder cd r = dec_binary cd (tline cd r).
Proof.
  intros T. destruct (ternary_symbols_eq cd c r T) as [_ E1]. destruct T as ((G & D) & _). unfold decoder, dec_symcode. rewrite G, D. cbn [step obind]. rewrite E1. reflexivity.
Qed.
Lemma ami_range a x : bits x -> Forall (fun v => 0 <= v < 3) (ami a x).
Proof.
  intros H. revert a; induction H as [|b x Hb _ IH]; intros a; [constructor|]. rewrite ami_cons by auto. constructor; [|apply IH]. destruct (b =? 1), (a mod 2 =? 0); lia.
Qed.
Lemma bipolar_enc_line cd b : binary_codes cd = codes [2%nat] -> bits b -> enc_binary cd b = Done (Ok (ami 0 b)).
Proof. intros C B. use_codes C. chain. unfold flat. rewrite (bipolar_enc (vec b) B). reflexivity. Qed.
Lemma bipolar_carries cd c N : ternary_symbols cd c -> binary_codes cd = codes [2%nat] -> carries cd c N N.
Proof.
  intros T C b B L. exists (tline cd (ami 0 b)). split; [apply (ternary_encoder cd c b); auto; now apply bipolar_enc_line|]. split; [rewrite tline_length, ami_length; lia|]. destruct T as (_ & _ & -> & _). apply tline_range, ami_range, B.
Qed.
Lemma bipolar_delayed cd c N q n bs ss rs start : ternary_symbols cd c -> binary_codes cd = codes [2%nat] -> (1 <= N)%nat ->
  Forall (fun b => bits b /\ length b = N) bs -> length bs = n -> Forall2 (fun b s => encoder cd b = Done (Ok s)) bs ss ->
  length rs = n -> Forall (fun x => length x = N) rs -> length start = q -> Forall (fun v => 0 <= v < Z.of_nat (length (get_levels c))) start ->
  length (concat ss) = (n * N)%nat -> concat rs = firstn (n * N) (start ++ concat ss) ->
  exists ds, decode_all cd rs = Done (Ok (map (map inject_Z) ds)) /\ length ds = n /\ Forall (fun d => length d = N) ds /\
    forall i, (q + i < n * N)%nat -> nth (q + i) (concat ds) 0 = nth i (concat bs) 0.
Proof.
  intros T C HN Fb Lb F2 Lr Fr Ls Rs Lss CR.
  destruct (memory_delayed cd c 1 N N (tline cd) (ami 0) (fun v => Z.abs (v - 1)) (fun _ b => Z.abs (b - 1)) q n bs ss rs start) as (ds & D1 & D2 & D3 & D4); auto using tline_app, tline_length, ami_length; try lia.
  - now apply bipolar_carries.
  - intros r Lr' _. exists (map (fun v => Z.abs (v - 1)) (tline cd r)). rewrite (ternary_decoder cd c r T), map_length, tline_length. split; [|split; [lia|]].
    + use_codes C. chain. reflexivity.
    + intros p Hp. rewrite (map_nth_lt _ _ _ 0) by (rewrite tline_length; lia). destruct (p =? 0)%nat; reflexivity.
  - intros b s B _ E. rewrite (ternary_encoder cd c b _ T (bipolar_enc_line cd b C B)) in E. injection E as <-. apply tline_tline.
  - exists ds. split; [exact D1|]. split; [exact D2|]. split; [exact D3|]. intros i Hi. destruct (D4 i ltac:(lia)) as (Z0 & _ & Z1). rewrite Nat.mul_1_r in *. destruct (chunk_bit bs N n i HN Fb Lb ltac:(lia)) as (Bb & LB & -> & MB).
    assert (AE : Z.abs (nth (i mod N) (ami 0 (nth (i / N) bs [])) 0 - 1) = nth (i mod N) (nth (i / N) bs []) 0).
    { rewrite <- (ami_decode 0 _ Bb) at 2. rewrite (map_nth_lt _ _ _ 0) by (rewrite ami_length; lia). reflexivity. }
    destruct (Nat.eq_dec ((q + i) mod N) 0) as [E|E].
    + rewrite Z0 by exact E. exact AE.
    + destruct (Z1 E) as (a & ->). exact AE.
Qed.
(** MLT-3. *)
Definition mcode (b : list Z) : list Z := map (fun p => mlt_level (ones b (S p))) (seq 0 (length b)).
Lemma mcode_length b : length (mcode b) = length b.
Proof. unfold mcode. now rewrite map_length, seq_length. Qed.
Lemma mcode_nth b p : (p < length b)%nat -> nth p (mcode b) 0 = mlt_level (ones b (S p)).
Proof. intros H. unfold mcode. rewrite nth_map_seq by exact H. reflexivity. Qed.
Lemma mlt_range n : 0 <= mlt_level n < 3.
Proof. unfold mlt_level. assert (M := Nat.mod_upper_bound n 4 ltac:(lia)). destruct (n mod 4)%nat as [|[|[|[|m]]]]; cbn [nth]; lia. Qed.
Lemma mlt3_enc_line cd b : binary_codes cd = codes [3%nat] -> bits b -> enc_binary cd b = Done (Ok (mcode b)).
Proof.
  intros C B. destruct (mlt3_char (vec b) B) as (y & E & _ & Ly & Ny). cbn [data vec] in Ly, Ny. assert (EY : data y = mcode b) by (apply (nth_ext_def 0); [rewrite mcode_length; exact Ly|]; intros i Hi; rewrite mcode_nth by lia; apply Ny; lia).
  use_codes C. chain. unfold flat. rewrite E. cbn [bind]. now rewrite EY.
Qed.
Lemma mlt3_carries cd c N : ternary_symbols cd c -> binary_codes cd = codes [3%nat] -> carries cd c N N.
Proof.
  intros T C b B L. exists (tline cd (mcode b)). split; [apply (ternary_encoder cd c b); auto; now apply mlt3_enc_line|]. split; [rewrite tline_length, mcode_length; lia|]. destruct T as (_ & _ & -> & _). apply tline_range. unfold mcode. apply Forall_map, Forall_forall. intros v _. apply mlt_range.
Qed.
Lemma mlt3_delayed cd c N q n bs ss rs start : ternary_symbols cd c -> binary_codes cd = codes [3%nat] -> (1 <= N)%nat ->
  Forall (fun b => bits b /\ length b = N) bs -> length bs = n -> Forall2 (fun b s => encoder cd b = Done (Ok s)) bs ss ->
  length rs = n -> Forall (fun x => length x = N) rs -> length start = q -> Forall (fun v => 0 <= v < Z.of_nat (length (get_levels c))) start ->
  length (concat ss) = (n * N)%nat -> concat rs = firstn (n * N) (start ++ concat ss) ->
  exists ds, decode_all cd rs = Done (Ok (map (map inject_Z) ds)) /\ length ds = n /\ Forall (fun d => length d = N) ds /\
    forall i, (q + i < n * N)%nat -> let j := (q + i)%nat in let b := nth (i / N) bs [] in
      ((j mod N <> 0)%nat -> (i mod N <> 0)%nat -> nth j (concat ds) 0 = nth i (concat bs) 0) /\
      ((j mod N = 0)%nat -> nth j (concat ds) 0 = if mlt_level (ones b (S (i mod N))) =? 1 then 1 else 0) /\
      ((j mod N <> 0)%nat -> (i mod N = 0)%nat -> (1 <= i)%nat -> nth j (concat ds) 0 = Z.abs (nth i (concat bs) 0 - mlt_level (ones (nth (i / N - 1) bs []) N))).
Proof.
  intros T C HN Fb Lb F2 Lr Fr Ls Rs Lss CR.
  destruct (memory_delayed cd c 1 N N (tline cd) mcode (fun v => if v =? 1 then 1 else 0) (fun a b => Z.abs (b - a)) q n bs ss rs start) as (ds & D1 & D2 & D3 & D4); auto using tline_app, tline_length, mcode_length; try lia.
  - now apply mlt3_carries.
  - intros r Lr' _. rewrite (ternary_decoder cd c r T). set (y := tline cd r). assert (Ly : length y = N) by (unfold y; rewrite tline_length; lia). destruct y as [|y0 y'] eqn:Ey; [cbn in Ly; lia|].
    exists ((if y0 =? 1 then 1 else 0) :: map Z.abs (np_diff (y0 :: y'))). split; [|split].
    + use_codes C. chain. reflexivity.
    + cbn [length]. rewrite map_length, np_diff_length. cbn [length] in *. lia.
    + intros [|p] Hp; cbn [Nat.eqb nth]; [reflexivity|]. rewrite (map_nth_lt _ _ _ 0) by (rewrite np_diff_length; lia). rewrite np_diff_nth by lia. replace (S p - 1)%nat with p by lia. rewrite Nat.add_1_r. reflexivity.
  - intros b s B _ E. rewrite (ternary_encoder cd c b _ T (mlt3_enc_line cd b C B)) in E. injection E as <-. apply tline_tline.
  - exists ds. split; [exact D1|]. split; [exact D2|]. split; [exact D3|]. intros i Hi j b. destruct (D4 i ltac:(lia)) as (Z0 & Z1 & _). rewrite Nat.mul_1_r in *. fold j in Z0, Z1. destruct (chunk_bit bs N n i HN Fb Lb ltac:(lia)) as (Bb & LB & EB & MB). fold b in Bb, LB, EB, Z0, Z1. rewrite EB.
    pose proof (bits_nth b (i mod N) Bb) as Bi. pose proof (ones_S b (i mod N) Bb ltac:(lia)) as OS. rewrite mcode_nth in Z0, Z1 by lia. split; [|split].
    + intros J I. destruct (prev_pos i N HN I) as [P1 P2]. assert (I1 : (1 <= i)%nat) by (destruct i; [rewrite Nat.mod_0_l in I by lia; lia|lia]). rewrite Z1 by auto. rewrite P1, P2. fold b. rewrite mcode_nth by lia. replace (S (i mod N - 1)) with (i mod N)%nat by lia.
      destruct Bi as [Bi|Bi]; rewrite Bi in *; [replace (ones b (S (i mod N))) with (ones b (i mod N)) by lia; lia|replace (ones b (S (i mod N))) with (S (ones b (i mod N))) by lia; apply mlt_step].
    + intros J. apply Z0, J.
    + intros J I I1. destruct (prev_pos0 i N HN I I1) as (P1 & P2 & P3). rewrite Z1 by auto. rewrite P1, P2. destruct (chunk_bit bs N n (i - 1) HN Fb Lb ltac:(lia)) as (_ & LP & _). rewrite P2 in LP. rewrite mcode_nth by lia. replace (S (N - 1)) with N by lia. do 2 f_equal. rewrite I in *. change (ones b 0) with 0%nat in OS.
      destruct Bi as [Bi|Bi]; rewrite Bi in *; [replace (ones b 1) with 0%nat by lia|replace (ones b 1) with 1%nat by lia]; reflexivity.
Qed.
