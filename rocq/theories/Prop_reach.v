(** C84: how far one wrong line symbol or one wrong decision reaches.  Proofs are in P_reach.v. *)
From Verif Require Import Py PyQ B_list B_qc M_aux S_aux M_coding S_coding P_coding M_linear S_linear M_symbol S_rx M_slicer P_slicer M_filter S_filter P_filter S_reach P_reach.
From Coq Require Import QArith.
Import List ListNotations.
Open Scope Z_scope.

(** Gray decoding followed by symbol2bin, for the constellations of two and four levels and for every setting of the bit order
    flags (for one single symbol: only with the flags off, as symbol2bin needs two symbols for the rearrangement): when the
    slicer confuses only neighbouring symbols, every wrong symbol costs exactly one wrong bit. *)
Theorem C84_gray : forall c y r f, c <> PAM3 -> let n := Z.of_nat (length (get_levels c)) in
  Forall (fun i => 0 <= i < n) y -> Forall (fun i => 0 <= i < n) r -> neighbours y r ->
  (length y <> 1%nat \/ (inv_msb f = false /\ inv_lsb f = false /\ bit_order_inv f = false)) ->
  exists g g' b b', decoding_gray c (vec y) = Ok (vec g) /\ decoding_gray c (vec r) = Ok (vec g') /\
    symbol2bin g n f = Ok b /\ symbol2bin g' n f = Ok b' /\ hdist b b' = hdist y r.
Proof. exact gray_reach. Qed.
Print Assumptions C84_gray.

(** Differential decoding: a decoded symbol is right exactly when the rotation of the received symbol against the sent one is
    the same as one symbol earlier; so k wrong line symbols cost at most 2k wrong symbols and a constant rotation at most the
    first one. *)
Theorem C84_differential : forall c y r, y <> [] -> length r = length y -> let m := Z.of_nat (length (get_levels c)) in
  exists d d', decoding_differential c (vec y) = Ok (vec d) /\ decoding_differential c (vec r) = Ok (vec d') /\
    length d = length y /\ length d' = length y /\
    (forall i, (i < length y)%nat -> (nth i d 0 = nth i d' 0 <-> slip m y r i = slip_before m y r i)) /\
    (hdist d d' <= 2 * hdist y r)%nat.
Proof. intros c y r. exact (diff_reach c y r). Qed.
Print Assumptions C84_differential.
(** One wrong line symbol that is not the last one costs exactly two. *)
Theorem C84_differential_single : forall c y p e d d', (S p < length y)%nat -> 0 <= nth p y 0 < Z.of_nat (length (get_levels c)) ->
  0 <= e < Z.of_nat (length (get_levels c)) -> e <> nth p y 0 ->
  decoding_differential c (vec y) = Ok (vec d) -> decoding_differential c (vec (replace_at p e y)) = Ok (vec d') -> hdist d d' = 2%nat.
Proof. exact diff_single. Qed.
Print Assumptions C84_differential_single.

(** Manchester: a cell with one wrong half is decoded to one half (neither bit), a cell with two wrong halves to the other bit;
    no other cell is affected. *)
Theorem C84_manchester : forall x r, bits x -> bits r -> length r = (2 * length x)%nat ->
  exists y v, coding_manchester (vec x) = Ok (vec y) /\ decoding_manchester (vec r) = Ok (vec v) /\ length v = length x /\
    forall i, (i < length x)%nat -> nth i v 0%Q = match hits y r i with 0%nat => inject_Z (nth i x 0) | 1%nat => 1 # 2 | _ => inject_Z (1 - nth i x 0) end.
Proof. exact manch_reach. Qed.
Print Assumptions C84_manchester.
(** Differential Manchester: a bit is wrong exactly when one of the two halves of its cell is; two wrong halves cancel. *)
Theorem C84_diff_manchester : forall x r, bits x -> bits r -> length r = (2 * length x)%nat ->
  exists y v, coding_differential_manchester (vec x) = Ok (vec y) /\ decoding_differential_manchester (vec r) = Ok (vec v) /\ length v = length x /\
    forall i, (i < length x)%nat -> nth i v 0 = if (hits y r i =? 1)%nat then 1 - nth i x 0 else nth i x 0.
Proof. exact dm_reach. Qed.
Print Assumptions C84_diff_manchester.
(** Bipolar (AMI): a bit is wrong exactly when its own symbol changed between mark and space; a mark of the wrong polarity does
    no harm, and no error reaches another bit. *)
Theorem C84_bipolar : forall x r, bits x -> ternary r -> length r = length x ->
  exists y v, coding_bipolar (vec x) = Ok (vec y) /\ decoding_bipolar (vec r) = vec v /\ length y = length x /\ length v = length x /\ bits v /\
    (forall i, (i < length x)%nat -> (nth i v 0 = nth i x 0 <-> (nth i r 0 = 1 <-> nth i y 0 = 1))) /\ (hdist x v <= hdist y r)%nat.
Proof. exact bipolar_reach. Qed.
Print Assumptions C84_bipolar.
(** MLT-3: k wrong line symbols cost at most 2k wrong values. *)
Theorem C84_mlt3 : forall x r, x <> [] -> bits x -> ternary r -> length r = length x ->
  exists y v, coding_mlt3 (vec x) = Ok (vec y) /\ decoding_mlt3 r = Ok v /\ length v = length x /\ ternary v /\ (hdist x v <= 2 * hdist y r)%nat.
Proof. exact mlt_reach. Qed.
Print Assumptions C84_mlt3.
(** Linear block code of distance 2t+1 or more: a wrong block costs its (at most k) message bits and needs t+1 wrong bits, so
    the number of wrong message bits is at most k/(t+1) times that of wrong line bits, however they are spread. *)
Theorem C84_linear : forall k n G t x r, (0 < k)%nat -> (0 < n)%nat -> bits x -> bits r -> bits (data G) -> shape G = [k; n] -> wf_nda G ->
  (forall u v, length u = k -> bits u -> length v = k -> bits v -> u <> v -> (2 * t + 1 <= hdist (codeword k n (data G) u) (codeword k n (data G) v))%nat) ->
  exists y, coding_linear x G = Ok y /\ (length r = length y -> exists d, decoding_linear r G = Ok d /\
    (length x <= length d < length x + k)%nat /\ ((t + 1) * hdist d x <= k * hdist y r)%nat).
Proof. exact linear_reach. Qed.
Print Assumptions C84_linear.

(** Decision feedback (ffe_dfe, one sample per symbol): take two runs on signals that agree from sample p on, with any initial
    memories.  As soon as the decisions of the two runs have agreed on as many consecutive symbols as there are feedback taps,
    and the forward filter has left the differing samples behind, slicer inputs and decisions agree for ever after. *)
Theorem C84_dfe_recovers : forall x x' ffe dfe levels phase zf zf' zd zd' p, x <> [] -> ffe <> [] -> dfe <> [] -> slicer_levels levels <> [] ->
  (forall z, zf = Some z -> length z = length ffe) -> (forall z, zf' = Some z -> length z = length ffe) ->
  (forall z, zd = Some z -> length z = length dfe) -> (forall z, zd' = Some z -> length z = length dfe) ->
  same_from p x x' ->
  exists s d s' d', slicer_input (ffe_dfe x ffe (Some dfe) levels 1 phase zf zd) s /\ decisions (slicer_levels levels) s d /\
    slicer_input (ffe_dfe x' ffe (Some dfe) levels 1 phase zf' zd') s' /\ decisions (slicer_levels levels) s' d' /\ length s = length x /\ length s' = length x /\
    forall m, (p + length ffe - 1 <= m)%nat -> (length dfe <= m)%nat -> (forall i, (m - length dfe <= i < m)%nat -> nth i d 0%Qc = nth i d' 0%Qc) ->
      forall n, (m <= n < length x)%nat -> nth n s 0%Qc = nth n s' 0%Qc /\ nth n d 0%Qc = nth n d' 0%Qc.
Proof. exact dfe_recovers. Qed.
Print Assumptions C84_dfe_recovers.
(** A receiver whose feedback taps match the channel, started with a wrong decision history: if twice the noise and the
    feedback taps weighted with the largest level difference W stay below the level distance, every decision is right from the
    first symbol on, and after as many symbols as there are taps the slicer sees the sent level plus the noise. *)
Theorem C84_dfe_immune : forall s w h x md zd levels phase W, x <> [] -> h <> [] -> length s = length x -> length w = length x ->
  (forall n, (n < length x)%nat -> nth n x 0%Qc = (tap_sum (ofZ 1 :: h) md s 0 n + nth n w 0)%Qc) ->
  Forall (fun v => In v (slicer_levels levels)) s -> Forall (fun v => In v (slicer_levels levels)) md -> Forall (fun v => In v (slicer_levels levels)) zd ->
  length md = length h -> length zd = length h ->
  (forall l l', In l (slicer_levels levels) -> In l' (slicer_levels levels) -> (Qcabs (l - l') <= W)%Qc) ->
  (forall n l l', (n < length x)%nat -> In l (slicer_levels levels) -> In l' (slicer_levels levels) -> l <> l' ->
     (ofZ 2 * (Qcabs (nth n w 0) + sumQ (map Qcabs h) * W) < Qcabs (l - l'))%Qc) ->
  exists sin, slicer_input (ffe_dfe x [ofZ 1] (Some h) levels 1 phase None (Some zd)) sin /\ decisions (slicer_levels levels) sin s /\
    forall n, (length h <= n < length x)%nat -> nth n sin 0%Qc = (nth n s 0 + nth n w 0)%Qc.
Proof. exact dfe_immune. Qed.
Print Assumptions C84_dfe_immune.
(** (Finding.) Without such a margin the feedback may never recover: on two levels with one feedback tap equal to the main tap,
    the samples 1, 0, 0, ... decide to 1, -1, 1, ... and -1, 0, 0, ... to the opposite of it.  One wrong sample inverts every
    decision of a transmission of any length, though all other samples are received without noise. *)
Theorem C84_dfe_settles_refuted : exists ffe dfe levels, forall N phase, exists x x' d d',
  length x = S N /\ same_from 1 x x' /\
  slicer_input (ffe_dfe x ffe (Some dfe) (Some levels) 1 phase None None) d /\ decisions levels d d /\
  slicer_input (ffe_dfe x' ffe (Some dfe) (Some levels) 1 phase None None) d' /\ decisions levels d' d' /\
  forall n, (n <= N)%nat -> nth n d' 0%Qc <> nth n d 0%Qc.
Proof.
  exists [ofZ 1]%list, [ofZ 1]%list, [ofZ (-1); ofZ 1]%list. intros N phase.
  exists (ofZ 1 :: repeat 0%Qc N), (ofZ (-1) :: repeat 0%Qc N), (alternating (ofZ 1) (S N)), (alternating (ofZ (-1)) (S N)).
  split; [cbn; now rewrite repeat_length|]. split; [split; [reflexivity|intros [|n] H; [lia|reflexivity]]|].
  destruct (alternating_run (ofZ 1) N phase (or_introl eq_refl)) as (A & B). destruct (alternating_run (ofZ (-1)) N phase (or_intror eq_refl)) as (A' & B').
  do 4 (split; [assumption|]). intros n Hn. unfold alternating. rewrite !nth_map_seq by lia. destruct (Nat.even (0 + n)); discriminate.
Qed.
Print Assumptions C84_dfe_settles_refuted.

(** ** Concrete cases *)
Example C84_case_gray : neighbours [0; 1; 2; 3] [1; 1; 3; 3] /\
  exists g g' b b', decoding_gray PAM4 (vec [0; 1; 2; 3]) = Ok (vec g) /\ decoding_gray PAM4 (vec [1; 1; 3; 3]) = Ok (vec g') /\
    symbol2bin g 4 (mk_flags false false false false) = Ok b /\ symbol2bin g' 4 (mk_flags false false false false) = Ok b' /\ b = [0; 0; 1; 0; 1; 1; 0; 1] /\ hdist b b' = 2%nat.
Proof. split; [split; [reflexivity|intros [|[|[|[|i]]]]; cbn; try lia; destruct i; cbn; lia]|]. exists [0; 1; 3; 2], [1; 1; 2; 2]. do 2 eexists. repeat split; vm_compute; reflexivity. Qed.
(** Without the Gray code the neighbours 1 and 2 differ in two bits. *)
Example C84_case_natural : hdist [0; 1] [1; 0] = 2%nat /\ symbol2bin [1; 1] 4 (mk_flags false false false false) = Ok [1; 0; 1; 0] /\ symbol2bin [2; 2] 4 (mk_flags false false false false) = Ok [0; 1; 0; 1].
Proof. repeat split; vm_compute; reflexivity. Qed.
Example C84_case_differential : decoding_differential PAM4 (vec [1; 3; 0; 2]) = Ok (vec [1; 2; 1; 2]) /\ decoding_differential PAM4 (vec [1; 1; 0; 2]) = Ok (vec [1; 0; 3; 2]).
Proof. split; vm_compute; reflexivity. Qed.
Example C84_case_manchester : coding_manchester (vec [1; 0; 1]) = Ok (vec [1; 0; 0; 1; 1; 0]) /\ map (hits [1; 0; 0; 1; 1; 0] [0; 0; 0; 1; 0; 1]) [0; 1; 2]%nat = [1; 0; 2]%nat /\
  decoding_manchester (vec [0; 0; 0; 1; 0; 1]) = Ok (vec [1 # 2; 0%Q; 0%Q]).
Proof. repeat split; vm_compute; reflexivity. Qed.
Example C84_case_diff_manchester : coding_differential_manchester (vec [1; 0; 1; 1]) = Ok (vec [0; 0; 1; 0; 1; 1; 0; 0]) /\ decoding_differential_manchester (vec [0; 1; 0; 1; 1; 1; 0; 0]) = Ok (vec [0; 0; 1; 1]).
Proof. split; vm_compute; reflexivity. Qed.
Example C84_case_mlt3 : coding_mlt3 (vec [1; 1; 1; 1]) = Ok (vec [1; 2; 1; 0]) /\ decoding_mlt3 [1; 2; 2; 0] = Ok [1; 1; 0; 2].
Proof. split; vm_compute; reflexivity. Qed.
Example C84_case_bipolar : coding_bipolar (vec [1; 0; 1]) = Ok (vec [0; 1; 2]) /\ decoding_bipolar (vec [2; 1; 2]) = vec [1; 0; 1].
Proof. split; vm_compute; reflexivity. Qed.
(** A noiseless signal 1 - 1/8, -1 + 1/8, 1 - 1/8, ... of a channel with the postcursor 1/8, and a receiver that starts from a wrong decision. *)
Example C84_case_immune : let h := [Q2Qc (1 # 8)] in let lv := [ofZ (-1); ofZ 1] in
  (forall l l', In l lv -> In l' lv -> l <> l' -> (ofZ 2 * (Qcabs 0 + sumQ (map Qcabs h) * ofZ 2) < Qcabs (l - l'))%Qc) /\
  (forall l l', In l lv -> In l' lv -> (Qcabs (l - l') <= ofZ 2)%Qc) /\
  exists sin, slicer_input (ffe_dfe [Q2Qc (7 # 8); Q2Qc (- 7 # 8); Q2Qc (7 # 8)] [ofZ 1] (Some h) (Some lv) 1 0 None (Some [ofZ 1]%list)) sin /\
    sin = [Q2Qc (3 # 4); ofZ (-1); ofZ 1]%list.
Proof.
  cbv zeta. split; [|split].
  - intros l l' [<-|[<-|[]]] [<-|[<-|[]]] N; try (exfalso; apply N; reflexivity); reflexivity.
  - intros l l' [<-|[<-|[]]] [<-|[<-|[]]]; discriminate.
  - eexists. split; [|reflexivity]. vm_compute. repeat (f_equal; try apply Qc_is_canon); reflexivity.
Qed.
