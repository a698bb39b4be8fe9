(** C60, C64: bit error counter and pattern source of the example link.  Theorems only; proofs are in P_simcheck.v. *)
From Verif Require Import Py B_list M_aux M_prbs S_prbs M_lock P_linear P_prbs P_prbs_gen P_checker M_simcheck S_simcheck P_simcheck.
From Coq Require Import QArith.
Open Scope Z_scope.

(** *** C60: the counter *)
(** A counter built from default or live seed settings starts at zero. *)
Theorem C60_init : forall t chunk seed, match seed with Some s => live_seed t s | None => True end ->
  exists ck, checker_init (prbs_data_init t chunk seed) = Ok ck /\ counts_for t ck /\ ck_seqs ck = [] /\ ck_errors ck = 0 /\ ck_symbols ck = 0.
Proof. exact init_counts. Qed.
Print Assumptions C60_init.
(** Any history of chunks (of any lengths, empty ones included): one result per call, totals are the sums, errors never
    exceed bits, the counted errors are the reported rates times the chunk lengths, every rate is in [0, 1], an empty
    chunk raises ValueError and counts nothing. *)
Theorem C60_history : forall t chunks ck, counts_for t ck -> Forall bits chunks ->
  let (ck', rs) := check_all ck chunks in
  counts_for t ck' /\ ck_vec ck' = ck_vec ck /\ length rs = length chunks /\
  ck_symbols ck' - ck_symbols ck = total_bits chunks /\
  0 <= ck_errors ck' - ck_errors ck <= total_bits chunks /\
  (inject_Z (ck_errors ck' - ck_errors ck) == weighted_rates rs chunks)%Q /\
  ck_seqs ck' = ck_seqs ck ++ filter (fun c => negb (length c =? 0)%nat) chunks /\
  (forall i, (i < length chunks)%nat ->
     (nth i chunks [] = [] -> nth i rs (Raise KeyError) = Raise ValueError) /\
     (nth i chunks [] <> [] -> exists q, nth i rs (Raise KeyError) = Ok q /\ (0 <= q <= 1)%Q)).
Proof. exact check_history. Qed.
Print Assumptions C60_history.
(** What is counted for a chunk: the differences to the PRBS from some live register state; no other state fits the
    first period of the chunk better. *)
Theorem C60_chunk_errors : forall t ck data, counts_for t ck -> bits data -> data <> [] ->
  let D := length data in let m := Nat.min (2 ^ prbs_value t - 1) D in
  exists u ref, live_seed t u /\ prbs_from t u ref D /\
    (forall u' ref', live_seed t u' -> prbs_from t u' ref' D -> (differences data ref m <= differences data ref' m)%nat) /\
    check_ber ck data = (mk_ck t (ck_vec ck) (ck_seqs ck ++ [data]) (ck_errors ck + Z.of_nat (differences data ref D)) (ck_symbols ck + Z.of_nat D),
      Ok (Z.of_nat (differences data ref D) # Pos.of_nat D)%Q).
Proof. exact check_general. Qed.
Print Assumptions C60_chunk_errors.
(** Error-free chunks count no errors, whatever their phase and length. *)
Theorem C60_clean_chunk : forall t ck u data, counts_for t ck -> live_seed t u -> prbs_from t u data (length data) -> data <> [] ->
  check_ber ck data = (mk_ck t (ck_vec ck) (ck_seqs ck ++ [data]) (ck_errors ck) (ck_symbols ck + Z.of_nat (length data)), Ok (0 # Pos.of_nat (length data))%Q).
Proof. exact check_clean. Qed.
Print Assumptions C60_clean_chunk.
(** Chunks of at least one period with less than a quarter of errors in the first period are counted exactly. *)
Theorem C60_exact_count : forall t ck u clean data, counts_for t ck -> live_seed t u -> prbs_from t u clean (length data) -> bits data ->
  (2 ^ prbs_value t - 1 <= length data)%nat -> 4 * Z.of_nat (differences data clean (2 ^ prbs_value t - 1)) < 2 ^ Z.of_nat (prbs_value t) ->
  check_ber ck data = (mk_ck t (ck_vec ck) (ck_seqs ck ++ [data]) (ck_errors ck + Z.of_nat (differences data clean (length data))) (ck_symbols ck + Z.of_nat (length data)),
    Ok (Z.of_nat (differences data clean (length data)) # Pos.of_nat (length data))%Q).
Proof. exact check_exact. Qed.
Print Assumptions C60_exact_count.
(** Chunks of at most one period are never counted with more errors than they have... *)
Theorem C60_never_over : forall t ck u clean data, counts_for t ck -> live_seed t u -> prbs_from t u clean (length data) -> bits data -> data <> [] ->
  (length data <= 2 ^ prbs_value t - 1)%nat ->
  exists e, 0 <= e <= Z.of_nat (differences data clean (length data)) /\
  check_ber ck data = (mk_ck t (ck_vec ck) (ck_seqs ck ++ [data]) (ck_errors ck + e) (ck_symbols ck + Z.of_nat (length data)), Ok (e # Pos.of_nat (length data))%Q).
Proof. exact check_under. Qed.
Print Assumptions C60_never_over.
(** ... but (finding) with fewer: a chunk of at most n bits, whatever it contains, is reported error-free (only n zeros
    are not), because the counter locks anew on every chunk. *)
Theorem C60_short_chunk_refuted : forall t ck data, counts_for t ck -> bits data -> data <> [] -> (length data <= prbs_value t)%nat ->
  data <> repeat 0 (prbs_value t) ->
  check_ber ck data = (mk_ck t (ck_vec ck) (ck_seqs ck ++ [data]) (ck_errors ck) (ck_symbols ck + Z.of_nat (length data)), Ok (0 # Pos.of_nat (length data))%Q).
Proof. intros t ck data C B N L Z0. destruct (short_piece t data B L Z0) as (u & Lu & F). now apply (check_clean t ck u). Qed.
Print Assumptions C60_short_chunk_refuted.
Definition ck7 : checker := match checker_init (prbs_data_init PRBS7 127 None) with Ok ck => ck | Raise _ => mk_ck PRBS7 [] [] 0 0 end.
(** Two periods of PRBS7 with three errors, then a short noise chunk, then an empty one. *)
Definition noisy7 : list Z := match prbs_generator (get_polynomial PRBS7) [1;0;0;1;0;0;1] 254 with
  | Ok (l, _) => map (fun i => if existsb (Nat.eqb i) [3; 40; 200]%nat then 1 - nth i l 0 else nth i l 0) (seq 0 254) | Raise _ => [] end.
Example C60_case : counts_for PRBS7 ck7 /\ bits noisy7 /\
  snd (check_all ck7 [noisy7; [1;0;0;1;1]; []]) = [Ok (3 # 254)%Q; Ok (0 # 5)%Q; Raise ValueError] /\
  ck_errors (fst (check_all ck7 [noisy7; [1;0;0;1;1]; []])) = 3 /\ ck_symbols (fst (check_all ck7 [noisy7; [1;0;0;1;1]; []])) = 259.
Proof.
  split; [|split; [apply bits_check; vm_compute; reflexivity|repeat split; vm_compute; reflexivity]].
  destruct (init_counts PRBS7 127 None I) as (ck & E & C & _). unfold ck7. rewrite E. exact C.
Qed.
Example C60_exact_case : exists clean, prbs_from PRBS7 [1;0;0;1;0;0;1] clean (length noisy7) /\ live_seed PRBS7 [1;0;0;1;0;0;1] /\ length noisy7 = 254%nat /\
  differences noisy7 clean 127 = 2%nat /\ differences noisy7 clean 254 = 3%nat.
Proof.
  eexists. split; [eexists; vm_compute; reflexivity|]. split; [split; [reflexivity|split; [apply bits_check; reflexivity|discriminate]]|]. repeat split; vm_compute; reflexivity.
Qed.

(** *** C64: the pattern source *)
(** k chunks in a row are one long run of the generator, and the seed afterwards is the one to continue with. *)
Theorem C64_source_continues : forall t k g, pg_poly g = get_polynomial t -> length (pg_seed g) = prbs_value t -> bits (pg_seed g) ->
  exists g' l, prbs_gen_run k g = (g', Ok l) /\ length l = k /\ Forall (fun c => length c = pg_chunk g) l /\
    pg_poly g' = pg_poly g /\ pg_chunk g' = pg_chunk g /\
    prbs_generator (get_polynomial t) (pg_seed g) (Z.of_nat (k * pg_chunk g)) = Ok (concat l, pg_seed g').
Proof. exact gen_run. Qed.
Print Assumptions C64_source_continues.
(** The default seed is all ones. *)
Theorem C64_default_seed : forall t chunk, prbs_gen_init (prbs_data_init t chunk None) = mk_pg (get_polynomial t) chunk (repeat 1 (prbs_value t)).
Proof. intros t chunk. unfold prbs_gen_init, prbs_data_init. cbn [pd_poly pd_chunk pd_seed]. now rewrite ones_map. Qed.
Print Assumptions C64_default_seed.
(** Source and counter fit together: every history of generated chunks is counted error-free. *)
Theorem C64_source_counts_clean : forall t chunk k, (0 < chunk)%nat -> forall g l ck,
  prbs_gen_run k (prbs_gen_init (prbs_data_init t chunk None)) = (g, Ok l) -> counts_for t ck ->
  ck_errors (fst (check_all ck l)) = ck_errors ck /\ Forall (fun r => exists q, r = Ok q /\ (q == 0)%Q) (snd (check_all ck l)).
Proof.
  intros t chunk k Hc. rewrite C64_default_seed.
  assert (H : live_seed t (repeat 1 (prbs_value t))) by apply ones_seed. revert H. generalize (repeat 1 (prbs_value t)) as s. induction k as [|k IH]; intros s Hs g l ck E C.
  - injection E as _ <-. split; [reflexivity|constructor].
  - cbn [prbs_gen_run] in E. unfold prbs_gen_next in E. cbn [pg_poly pg_seed pg_chunk] in E. rewrite gen_char in E by apply Hs.
    destruct (prbs_gen_run k _) as (g2 & [l2|e]) eqn:E2; [|discriminate E]. injection E as _ <-.
    set (d := outbits (get_polynomial t) s chunk) in *. assert (Ld : length d = chunk) by apply outbits_length.
    assert (Ec : check_ber ck d = (mk_ck t (ck_vec ck) (ck_seqs ck ++ [d]) (ck_errors ck) (ck_symbols ck + Z.of_nat (length d)), Ok (0 # Pos.of_nat (length d))%Q)).
    { apply (check_clean t ck s); auto; [rewrite Ld; now apply outbits_from|]. intros Q. rewrite Q in Ld. cbn [length] in Ld. lia. }
    cbn [check_all]. rewrite Ec. assert (C1 := counts_next _ _ _ _ _ C Ec).
    destruct (IH _ (live_iter t s chunk Hs) _ _ _ E2 C1) as [I1 I2]. destruct (check_all _ l2) as (ck2 & rs). cbn [fst snd] in *.
    split; [exact I1|]. constructor; [|exact I2]. eexists. split; [reflexivity|]. reflexivity.
Qed.
Print Assumptions C64_source_counts_clean.
Example C64_case : prbs_gen_run 2 (prbs_gen_init (prbs_data_init PRBS7 5 None)) =
  (mk_pg (get_polynomial PRBS7) 5 [0;0;0;1;0;0;0], Ok [[0;0;0;0;0]; [0;1;0;0;0]]).
Proof. vm_compute. reflexivity. Qed.
