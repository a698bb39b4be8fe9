(** Properties C18-C21: linear block codes (tx/coding.py, rx/decoding.py, misc/ml_decoding.py). *)
From Verif Require Import Py B_list M_aux S_aux M_linear S_linear P_linear.
From Coq Require Import QArith.
Open Scope Z_scope.

(** C18: zero padding, output length, each block is multiplied by G over GF(2). *)
Theorem C18_coding_linear_blocks : forall (k n : nat) (x : list Z) (G : nda Z),
  (0 < k)%nat -> bits x -> bits (data G) -> shape G = [k; n] -> wf_nda G ->
  exists y, coding_linear x G = Ok y /\ bits y /\ length y = ((length x + k - 1) / k * n)%nat /\
    forall b, (b < (length x + k - 1) / k)%nat -> block n b y = codeword k n (data G) (block k b x).
Proof. exact coding_linear_spec. Qed.
Print Assumptions C18_coding_linear_blocks.
(** C18: linearity over GF(2). *)
Theorem C18_coding_linear_xor : forall (k n : nat) (x x' : list Z) (G : nda Z),
  (0 < k)%nat -> bits x -> bits x' -> length x = length x' -> bits (data G) -> shape G = [k; n] -> wf_nda G ->
  exists y y', coding_linear x G = Ok y /\ coding_linear x' G = Ok y' /\ coding_linear (xor_bits x x') G = Ok (xor_bits y y').
Proof. exact coding_linear_xor. Qed.
Print Assumptions C18_coding_linear_xor.
(** C18: a generator without rows raises ZeroDivisionError, one that is not 2-D raises ValueError. *)
Theorem C18_coding_linear_bad_generator : forall (x : list Z) (G : nda Z), bits x -> bits (data G) ->
  (forall n, shape G = [0%nat; n] -> coding_linear x G = Raise ZeroDivisionError) /\
  (length (shape G) <> 2%nat -> coding_linear x G = Raise ValueError).
Proof.
  intros x G Hx HG. unfold coding_linear. rewrite !P_aux.check_binary_bits by auto. cbn [bind]. split.
  - intros n ->. reflexivity.
  - intros H. destruct (shape G) as [|a [|b [|c l]]]; try reflexivity. simpl in H. congruence.
Qed.
Print Assumptions C18_coding_linear_bad_generator.
(** The [7,4] Hamming code. *)
Definition hamming74 : nda Z := mk_nda [4; 7]%nat
  [1; 0; 0; 0; 1; 1; 0;  0; 1; 0; 0; 1; 0; 1;  0; 0; 1; 0; 0; 1; 1;  0; 0; 0; 1; 1; 1; 1].
Example C18_case : bits (data hamming74) /\ wf_nda hamming74 /\
  coding_linear [1; 0; 1; 1; 1] hamming74 = Ok [1; 0; 1; 1; 0; 1; 0; 1; 0; 0; 0; 1; 1; 0].
Proof. split; [apply bits_check; reflexivity|]. split; vm_compute; reflexivity. Qed.

(** C19: nearest-codeword decoding, ties to the numerically smallest word, and the error probability; both
    calling modes return the same bits. *)
Theorem C19_decoding_linear_nearest : forall (k n : nat) (r : list Z) (G : nda Z),
  (0 < n)%nat -> bits r -> bits (data G) -> shape G = [k; n] -> wf_nda G ->
  exists d p a, decoding_linear_ep r G = Ok (d, p, a) /\ decoding_linear r G = Ok d /\
    length d = (length r / n * k)%nat /\ length p = (length r / n)%nat /\
    forall b, (b < length r / n)%nat ->
       nearest_word (codeword k n (data G)) k (block n b r) (block k b d) /\
       nth b p 0%Q = perr (codeword k n (data G)) k (block n b r) (block k b d).
Proof.
  intros k n r G Hn Br BG SG WG. destruct (decoding_linear_ep_spec k n r G Hn Br BG SG WG) as (d & p & a & E1 & E2 & L1 & L2 & _ & N & _).
  exists d, p, a. split; auto. split; auto. split; auto. split; auto. intros b Hb. destruct (N b Hb) as (A & B & _). auto.
Qed.
Print Assumptions C19_decoding_linear_nearest.
Example C19_case : (* a block with one error *)
  decoding_linear [1; 0; 1; 1; 0; 1; 1; 0] hamming74 = Ok [1; 0; 1; 1] /\
  decoding_linear_ep [1; 0; 1; 1] (mk_nda [1; 2]%nat [1; 1]) = Ok ([0; 1], [1 # 2; 0]%Q, [0; 0; 1; 1]).
Proof. split; vm_compute; reflexivity. Qed.

(** C20: up to t errors per block are corrected when the minimum distance is at least 2t+1. *)
Theorem C20_decoding_linear_corrects : forall (k n : nat) (G : nda Z) (t : nat) (x r : list Z),
  (0 < k)%nat -> (0 < n)%nat -> bits x -> bits r -> bits (data G) -> shape G = [k; n] -> wf_nda G ->
  (forall u v, length u = k -> bits u -> length v = k -> bits v -> u <> v ->
     (2 * t + 1 <= hdist (codeword k n (data G) u) (codeword k n (data G) v))%nat) ->
  exists y, coding_linear x G = Ok y /\
   (length r = length y -> (forall b, (b < (length x + k - 1) / k)%nat -> (hdist (block n b y) (block n b r) <= t)%nat) ->
    exists d, decoding_linear r G = Ok d /\ length d = ((length x + k - 1) / k * k)%nat /\ forall i, nth i d 0 = nth i x 0).
Proof. exact decoding_linear_corrects. Qed.
Print Assumptions C20_decoding_linear_corrects.
Example C20_hamming74_distance : forall u v, length u = 4%nat -> bits u -> length v = 4%nat -> bits v -> u <> v ->
  (2 * 1 + 1 <= hdist (codeword 4 7 (data hamming74) u) (codeword 4 7 (data hamming74) v))%nat.
Proof. apply (min_distance_check 4 7 (data hamming74) 1). vm_compute. reflexivity. Qed.

(** C21 (finding): with error_prob=True the caller's received array is overwritten, block by block, with the
    codewords chosen; only the incomplete trailing block is untouched. *)
Theorem C21_error_prob_overwrites_input : forall (k n : nat) (r : list Z) (G : nda Z),
  (0 < n)%nat -> bits r -> bits (data G) -> shape G = [k; n] -> wf_nda G ->
  exists d p a, decoding_linear_ep r G = Ok (d, p, a) /\ length a = length r /\
    (forall b, (b < length r / n)%nat -> block n b a = codeword k n (data G) (block k b d)) /\
    (forall i, (length r / n * n <= i)%nat -> nth i a 0 = nth i r 0).
Proof.
  intros k n r G Hn Br BG SG WG. destruct (decoding_linear_ep_spec k n r G Hn Br BG SG WG) as (d & p & a & E1 & E2 & L1 & L2 & L3 & N & T).
  exists d, p, a. split; auto. split; auto. split; auto. intros b Hb. now destruct (N b Hb) as (_ & _ & A).
Qed.
Print Assumptions C21_error_prob_overwrites_input.
(** (Finding.)  With error_prob the array of received bits is overwritten with the corrected ones. *)
Theorem C21_input_preserved_refuted : exists (r : list Z) (G : nda Z) d p a, bits r /\ bits (data G) /\ wf_nda G /\
  decoding_linear_ep r G = Ok (d, p, a) /\ a <> r.
Proof.
  exists [1; 0; 1], (mk_nda [1; 3]%nat [1; 1; 1]), [1], [1 # 1]%Q, [1; 1; 1].
  split; [apply bits_check; reflexivity|]. split; [apply bits_check; reflexivity|]. split; [reflexivity|].
  split; [vm_compute; reflexivity|congruence].
Qed.
Print Assumptions C21_input_preserved_refuted.
(** C21 (finding): consequently a second call on the same array reports no errors at all. *)
Theorem C21_second_call_reports_no_error : forall (k n : nat) (r : list Z) (G : nda Z) d p a,
  (0 < n)%nat -> bits r -> bits (data G) -> shape G = [k; n] -> wf_nda G ->
  (forall u v, length u = k -> bits u -> length v = k -> bits v -> codeword k n (data G) u = codeword k n (data G) v -> u = v) ->
  decoding_linear_ep r G = Ok (d, p, a) -> decoding_linear_ep a G = Ok (d, map (fun _ => 0%Q) p, a).
Proof. exact decoding_linear_twice. Qed.
Print Assumptions C21_second_call_reports_no_error.
