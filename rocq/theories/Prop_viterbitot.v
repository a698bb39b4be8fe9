(** C81: the Viterbi decoder on arbitrary received bits.  Proofs are in P_viterbitot.v. *)
From Verif Require Import Py B_list M_aux M_linear M_conv S_conv P_conv P_aux S_aux P_gf2 P_trellis P_linear M_convdec P_viterbi S_viterbitot P_viterbitot Prop_conv.
From Coq Require Import QArith.
Import List ListNotations.
Open Scope Z_scope.

(** Exactly which truncation lengths work: at least one output chunk, at most the whole pattern. *)
Theorem C81_returns : forall c r tb, code_shape c -> trellis_shape c -> check_valid_conv [] c = Ok tt -> bits r ->
  ((exists v, decoding_conv_viterbi r c tb = Ok v) <-> (n_out c <= tb <= length r)%nat) /\
  (tb = 0%nat -> decoding_conv_viterbi r c tb = Raise ZeroDivisionError) /\
  ((length r < tb)%nat -> decoding_conv_viterbi r c tb = Raise UnboundLocalError) /\
  ((0 < tb < n_out c)%nat -> (tb <= length r)%nat -> decoding_conv_viterbi r c tb = Raise IndexError).
Proof. exact viterbi_returns. Qed.
Print Assumptions C81_returns.
(** Whatever is received, every whole block gives the inputs of tb // n_out steps, one state and one error probability of at most 1/2;
    the handed-out values are 0, 1 or -1. *)
Theorem C81_shape : forall c r tb d last p, code_shape c -> trellis_shape c -> check_valid_conv [] c = Ok tt -> bits r -> decoding_conv_viterbi r c tb = Ok (d, last, p) ->
  length d = (length r / tb * (length (gen c) * (tb / n_out c)))%nat /\ (last < 2 ^ all_cells c)%nat /\ length p = (length r / tb)%nat /\
  Forall (fun v => v = -1 \/ v = 0 \/ v = 1) d /\ Forall (fun q => 0 <= q <= 1 # 2)%Q p.
Proof.
  intros c r tb d last p S T V B E. destruct (viterbi_returns c r tb S T V B) as (((HN & L) & _) & _); [eauto|].
  destruct (viterbi_total c S T V r tb B HN L) as (d' & last' & p' & E' & H1 & H2 & H3 & H4 & _ & H5). rewrite E in E'. injection E' as <- <- <-. auto.
Qed.
Print Assumptions C81_shape.
(** If every state can be entered from every state, or from some state with an output that is not all ones, only bits are
    handed out; in particular if no input has more than one memory cell. *)
Theorem C81_bits : forall c r tb d last p, code_shape c -> trellis_shape c -> check_valid_conv [] c = Ok tt -> bits r -> decoding_conv_viterbi r c tb = Ok (d, last, p) ->
  safe_code c \/ one_cell c -> bits d.
Proof.
  intros c r tb d last p S T V B E SC. destruct (viterbi_returns c r tb S T V B) as (((HN & L) & _) & _); [eauto|].
  destruct (viterbi_total c S T V r tb B HN L) as (d' & last' & p' & E' & _ & _ & _ & _ & H & _). rewrite E in E'. injection E' as <- <- <-. apply H. destruct SC as [SC|SC]; [exact SC|now apply one_cell_safe].
Qed.
Print Assumptions C81_bits.
(** A rate 2/3 code, the first input without memory. *)
Definition code_gap := mk_code [[[1]; [1]; [0]]; [[0; 0; 1; 0]; [1; 0; 1; 0]; [0; 1; 0; 0]]] None None.
(** (Finding.)  Where all transitions into a state put out ones only, a received chunk of zeros is as far from them as from
    the places of the table without a transition, which hold -1, and the first of these is taken: the decoder hands out
    -1, -1 for an error-free stream. *)
Theorem C81_minus_one_refuted : exists c x y, code_shape c /\ trellis_shape c /\ check_valid_conv [] c = Ok tt /\ bits x /\ coding_conv x c None = Ok y /\
  match decoding_conv_viterbi y c 12 with Ok (d, _, _) => d = [1; 0; 1; 0; -1; -1; 1; 0] | _ => False end /\ length y = 12%nat.
Proof.
  exists code_gap, [0; 0; 1; 0; 0; 0; 0; 0], [0; 0; 0; 1; 1; 0; 0; 0; 0; 0; 0; 0]. split; [code|]. split; [apply shape_trellis; reflexivity|]. split; [reflexivity|]. split; [apply bits_check; reflexivity|]. split; [vm_compute; reflexivity|]. split; vm_compute; reflexivity.
Qed.
Print Assumptions C81_minus_one_refuted.
(** *** Cases *)
(** The code of the shipped example has one cell: 12 received bits that are no codeword give 6 bits. *)
Example C81_case : code_shape code_rsc /\ trellis_shape code_rsc /\ check_valid_conv [] code_rsc = Ok tt /\ one_cell code_rsc /\
  match decoding_conv_viterbi [1; 1; 0; 1; 1; 1; 0; 0; 1; 0; 0; 1] code_rsc 4 with Ok (d, last, p) => length d = 6%nat /\ length p = 3%nat /\ bits d | _ => False end.
Proof.
  split; [code|]. split; [apply shape_trellis; reflexivity|]. split; [reflexivity|]. split; [intros i Hi; cbn in Hi; assert (i = 0%nat) by lia; subst; vm_compute; lia|].
  destruct (decoding_conv_viterbi _ _ _) as [[[d last] p]|e] eqn:E; [|vm_compute in E; discriminate E]. assert (B : bits [1; 1; 0; 1; 1; 1; 0; 0; 1; 0; 0; 1]) by (apply bits_check; reflexivity).
  vm_compute in E. injection E as <- <- <-. split; [reflexivity|]. split; [reflexivity|]. apply bits_check; reflexivity.
Qed.
(** The usual (7,5) code has two cells and is safe. *)
Example C81_case_safe : code_shape code75 /\ trellis_shape code75 /\ safe_code code75.
Proof.
  split; [code|]. split; [apply shape_trellis; reflexivity|]. intros e (L & B). right.
  assert (E : In e (get_bin_perm 2)) by (apply get_bin_perm_In; split; [exact L|exact B]).
  assert (Z0 : forall s, In s (get_bin_perm 2) -> isstate code75 s) by (intros s Hs; apply get_bin_perm_In in Hs; destruct Hs; split; auto).
  assert (Z1 : forall u, In u (get_bin_perm 1) -> isinput code75 u) by (intros s Hs; apply get_bin_perm_In in Hs; destruct Hs; split; auto).
  assert (Z2 : forall u, isinput code75 u -> In u (get_bin_perm 1)) by (intros s (A & C); apply get_bin_perm_In; split; auto).
  vm_compute in E.
  assert (W : forall s u, In s (get_bin_perm 2) -> In u (get_bin_perm 1) -> state_after code75 s u 1 = e -> conv_from code75 (unpack code75 s) u <> [1; 1] ->
     (forall v, In v (get_bin_perm 1) -> state_after code75 s v 1 = e -> conv_from code75 (unpack code75 s) v <> [1; 1]) ->
     exists s, (exists u o, goes code75 s u o e) /\ forall u o, goes code75 s u o e -> o <> repeat 1 (n_out code75)).
  { intros s u Hs Hu H1 H2 H3. exists s. split; [exists u, (conv_from code75 (unpack code75 s) u); split; auto|]. intros v o (_ & Iv & V1 & V2). change (repeat 1 (n_out code75)) with [1; 1]. rewrite <- V2. apply H3; auto. }
  destruct E as [<-|[<-|[<-|[<-|[]]]]].
  - apply (W [0; 0] [0]); try (vm_compute; auto; fail); try discriminate. intros v Hv. vm_compute in Hv. destruct Hv as [<-|[<-|[]]]; vm_compute; discriminate.
  - apply (W [1; 0] [0]); try (vm_compute; auto; fail); try discriminate. intros v Hv. vm_compute in Hv. destruct Hv as [<-|[<-|[]]]; vm_compute; discriminate.
  - apply (W [0; 1] [1]); try (vm_compute; auto; fail); try discriminate. intros v Hv. vm_compute in Hv. destruct Hv as [<-|[<-|[]]]; vm_compute; discriminate.
  - apply (W [1; 0] [1]); try (vm_compute; auto; fail); try discriminate. intros v Hv. vm_compute in Hv. destruct Hv as [<-|[<-|[]]]; vm_compute; discriminate.
Qed.
