(** C79: receivers of the example link that share the arrays of their settings.  Theorems only; proofs are in P_share.v. *)
From Coq Require Import String.
From Verif Require Import Py PyQ B_list B_qc M_aux M_symbol M_slicer M_filter M_lms M_estim M_sim M_rxloop S_rxloop P_rxloop M_share S_share P_share Prop_rxloop.
From Coq Require Import QArith Qcanon Lia.
Import List ListNotations.
Open Scope Z_scope.

(** *** Without tap updates *)
(** No gradient function, or nobody converges: whatever a script does with any number of receivers, in any order, and
    whatever arrays they share, no array changes, and every receiver returns the bits it returns by itself and ends in the
    state it ends in by itself. *)
Theorem C79_independent : forall f script w w' outs, never_adapts f w script -> sound w script -> exec_all f w script = Done (Ok (w', outs)) ->
  w_heap w' = w_heap w /\
  forall i oi, nth_error (w_objs w) i = Some oi -> exists oi', nth_error (w_objs w') i = Some oi' /\
    alone f (view (w_heap w) oi) (own_part (w_heap w) i script) = Done (Ok (view (w_heap w') oi', bits_of i outs)).
Proof. intros f script w w' outs N SD H. destruct (quiet_history _ _ _ _ _ N SD H) as (A & B). split; [exact A|]. rewrite A. exact B. Qed.
Print Assumptions C79_independent.
(** In particular with the package as it is, whose gradient function does not exist: also when receivers converge. *)
Theorem C79_package : forall g script w w' outs, sound w script -> exec_all (rx_attr "lms_grad" g) w script = Done (Ok (w', outs)) ->
  w_heap w' = w_heap w /\
  forall i oi, nth_error (w_objs w) i = Some oi -> exists oi', nth_error (w_objs w') i = Some oi' /\
    alone (rx_attr "lms_grad" g) (view (w_heap w) oi) (own_part (w_heap w) i script) = Done (Ok (view (w_heap w') oi', bits_of i outs)).
Proof. intros g script w w' outs SD H. apply C79_independent; [left; reflexivity|exact SD|exact H]. Qed.
Print Assumptions C79_package.
(** A receiver that the script builds starts as its settings say, whatever was called before. *)
Theorem C79_created : forall f a s st b w w' outs, never_adapts f w (a ++ New s :: b) -> sound w (a ++ New s :: b) ->
  exec_all f w (a ++ New s :: b) = Done (Ok (w', outs)) -> nth_error (w_settings w) s = Some st ->
  let i := (length (w_objs w) + news a)%nat in
  exists oi', nth_error (w_objs w') i = Some oi' /\
    alone f (view (w_heap w) (new_receiver st)) (own_part (w_heap w) i b) = Done (Ok (view (w_heap w) oi', bits_of i outs)).
Proof. exact quiet_created. Qed.
Print Assumptions C79_created.
(** The script raises nothing if no receiver raises anything by itself. *)
Theorem C79_goes_through : forall f script w, never_adapts f w script -> sound w script -> Forall (named (length (w_objs w))) script ->
  (forall i oi, nth_error (w_objs w) i = Some oi -> exists z, alone f (view (w_heap w) oi) (own_part (w_heap w) i script) = Done (Ok z)) ->
  exists w' outs, exec_all f w script = Done (Ok (w', outs)).
Proof. exact quiet_completes. Qed.
Print Assumptions C79_goes_through.

(** *** With tap updates *)
(** Any gradient function.  A receiver whose taps are lists, or float arrays that nobody else holds, behaves as by itself,
    whatever happens to the other receivers in between: M_rxloop.v describes it. *)
Theorem C79_private : forall f script w w' outs i oi, exec_all f w script = Done (Ok (w', outs)) -> sound w script -> Forall (keeps_taps i) script ->
  nth_error (w_objs w) i = Some oi -> private_taps w script i oi ->
  exists oi', nth_error (w_objs w') i = Some oi' /\ alone f (view (w_heap w) oi) (own_part (w_heap w) i script) = Done (Ok (view (w_heap w') oi', bits_of i outs)).
Proof. exact private_history. Qed.
Print Assumptions C79_private.
Theorem C79_private_goes_through : forall f script w, sound w script -> Forall (named (length (w_objs w))) script ->
  (forall i oi, nth_error (w_objs w) i = Some oi -> Forall (keeps_taps i) script /\ private_taps w script i oi) ->
  (forall i oi, nth_error (w_objs w) i = Some oi -> exists z, alone f (view (w_heap w) oi) (own_part (w_heap w) i script) = Done (Ok z)) ->
  exists w' outs, exec_all f w script = Done (Ok (w', outs)).
Proof. exact private_completes. Qed.
Print Assumptions C79_private_goes_through.
(** Receivers on the same float arrays never have different taps again: after any script they all see one pair of arrays;
    so does a receiver built from these settings afterwards, and so do the settings and the caller. *)
Theorem C79_common : forall f script w w' outs i j oi oj st, exec_all f w script = Done (Ok (w', outs)) -> sound w script ->
  Forall (keeps_taps i) script -> Forall (keeps_taps j) script ->
  nth_error (w_objs w) i = Some oi -> nth_error (w_objs w) j = Some oj ->
  ro_ffe oi = st_ffe st -> ro_dfe oi = st_dfe st -> ro_ffe oj = st_ffe st -> ro_dfe oj = st_dfe st ->
  (exists v, nth_error (w_heap w) (st_ffe st) = Some (mk_cell KFloat v)) -> (exists v, nth_error (w_heap w) (st_dfe st) = Some (mk_cell KFloat v)) ->
  exists oi' oj', nth_error (w_objs w') i = Some oi' /\ nth_error (w_objs w') j = Some oj' /\
    let taps o := (e_ffe_vec (rx_eq (view (w_heap w') o)), e_dfe_vec (rx_eq (view (w_heap w') o))) in
    taps oi' = taps oj' /\ taps (new_receiver st) = taps oi' /\ taps oi' = (hget (w_heap w') (st_ffe st), hget (w_heap w') (st_dfe st)).
Proof.
  intros f script w w' outs i j oi oj st H SD K1 K2 E1 E2 A1 A2 B1 B2 F1 F2.
  destruct (common_history f script w w' outs i oi H SD K1 E1) as (oi' & X1 & X2 & X3 & _); [rewrite A1; exact F1|rewrite A2; exact F2|].
  destruct (common_history f script w w' outs j oj H SD K2 E2) as (oj' & Y1 & Y2 & Y3 & _); [rewrite B1; exact F1|rewrite B2; exact F2|].
  exists oi', oj'. split; [exact X1|]. split; [exact Y1|]. cbv zeta. cbn [view with_taps rx_eq e_ffe_vec e_dfe_vec new_receiver ro_ffe ro_dfe]. rewrite X2, X3, Y2, Y3, A1, A2, B1, B2. auto.
Qed.
Print Assumptions C79_common.

(** *** Examples and findings *)
(** Two receivers built from one settings object, the forward taps given by the caller. *)
Definition ex_world (k : akind) : option world :=
  match mapping_data_init PAM4 ex_levels (ofZ 2) (ofZ 3), eq_settings [mk_cell k (map ofZ [0; 1; 0])] 1 1 1 (Some 0%nat) None (Some ex_levels) None None with
  | Done (Ok m), Ok (h, e, p, q) =>
    let s := mk_st 2 (adc_init 8 0 "ss" 2 1 (Some 1)) e p q m ex_cd (ofZ 1 / ofZ 1024)%Qc (ofZ 1) in
    Some (mk_world h [s] [new_receiver s; new_receiver s])
  | _, _ => None
  end.
Definition loud : list Qc := map ofZ [0; 120; 0; 120; 0; 120; 0; 120].
Definition ex_script : list cmd := [Call 0 loud; Start 0; Call 0 loud; Call 1 (ex_chunk 0)].
Definition taps_in (w : world) : list (list Q) := map (fun c => map this (c_vals c)) (w_heap w).
Definition run_script (k : akind) (f : option lms_fun) (script : list cmd) : option (list (list Q) * list (nat * list Q)) :=
  match ex_world k with
  | Some w => match exec_all f w script with Done (Ok (w', outs)) => Some (taps_in w', outs) | _ => None end
  | None => None
  end.
Definition run_alone (k : akind) (f : option lms_fun) (i : nat) (script : list cmd) : option (list (list Q)) :=
  match ex_world k with
  | Some w => match nth_error (w_objs w) i with
              | Some o => match alone f (view (w_heap w) o) (own_part (w_heap w) i script) with Done (Ok z) => Some (snd z) | _ => None end
              | None => None
              end
  | None => None
  end.
(** Interleaved calls without convergence: both receivers return what they return alone, the arrays stay. *)
Definition idle_script : list cmd := [Call 0 loud; Call 1 (ex_chunk 0); Call 0 (ex_chunk 1); Call 1 (ex_chunk 1)].
Example C79_case_idle : match run_script KFloat (Some intended_lms) idle_script with
  | Some (taps, outs) => taps = [[0; 1; 0]; [0]]%Q /\ run_alone KFloat (Some intended_lms) 0 idle_script = Some (bits_of 0 outs) /\
      run_alone KFloat (Some intended_lms) 1 idle_script = Some (bits_of 1 outs) /\ bits_of 1 outs = [[1; 0; 1; 1; 0; 1; 1; 0]; [0; 0; 1; 0; 1; 1; 0; 1]]%Q
  | None => False
  end.
Proof. vm_compute. repeat split; reflexivity. Qed.
(** The hypotheses hold in this world. *)
Example C79_case_sound : match ex_world KFloat with
  | Some w => sound w idle_script /\ never_adapts (Some intended_lms) w idle_script /\ Forall (named (length (w_objs w))) idle_script /\ sound w ex_script
  | None => False
  end.
Proof.
  destruct (ex_world KFloat) as [w|] eqn:E.
  2:{ exfalso. assert (X : match ex_world KFloat with Some _ => True | None => False end) by (vm_compute; exact I). rewrite E in X. exact X. }
  assert (L : length (w_heap w) = 2%nat /\ map (fun o => (ro_ffe o, ro_dfe o, rx_converge (ro_rx o))) (w_objs w) = [(0%nat, 1%nat, false); (0%nat, 1%nat, false)]).
  { assert (X : match ex_world KFloat with Some w => length (w_heap w) = 2%nat /\ map (fun o => (ro_ffe o, ro_dfe o, rx_converge (ro_rx o))) (w_objs w) = [(0%nat, 1%nat, false); (0%nat, 1%nat, false)] | None => False end) by (vm_compute; repeat split; reflexivity).
    rewrite E in X. exact X. }
  destruct L as (LH & LO). destruct (w_objs w) as [|o1 [|o2 [|o3 l]]] eqn:EO; try discriminate LO. cbn [map] in LO.
  assert (A : ro_ffe o1 = 0%nat /\ ro_dfe o1 = 1%nat /\ rx_converge (ro_rx o1) = false /\ ro_ffe o2 = 0%nat /\ ro_dfe o2 = 1%nat /\ rx_converge (ro_rx o2) = false) by (injection LO; intros; auto 10).
  destruct A as (A1 & A2 & A3 & A4 & A5 & A6). unfold sound, never_adapts. rewrite EO, LH.
  assert (O : Forall (fun o => (ro_ffe o < 2)%nat /\ (ro_dfe o < 2)%nat) [o1; o2]) by (apply Forall_forall; intros o [<-|[<-|[]]]; rewrite ?A1, ?A2, ?A4, ?A5; lia).
  split; [split; [exact O|repeat constructor]|]. split; [right; split; [apply Forall_forall; intros o [<-|[<-|[]]]; assumption|repeat constructor]|]. split; [repeat constructor|]. split; [exact O|repeat constructor].
Qed.
(** (Finding.) Once there is a gradient function, converging one receiver rewrites the taps of every other receiver built
    from the same settings, the settings and the caller's array: the second receiver returns other bits than by itself. *)
Theorem C79_sharing_refuted : match run_script KFloat (Some intended_lms) ex_script with
  | Some (taps, outs) => taps = [[80912835 # 8192; 80921027 # 8192; 80912835 # 8192]; [16182567 # 65536]]%Q /\
      run_alone KFloat (Some intended_lms) 1 ex_script = Some [[1; 0; 1; 1; 0; 1; 1; 0]]%Q /\ bits_of 1 outs = [[1; 1; 1; 1; 1; 1; 0; 0]]%Q
  | None => False
  end.
Proof. vm_compute. repeat split; reflexivity. Qed.
Print Assumptions C79_sharing_refuted.
(** (Finding.) With integer forward taps (np.array([0, 1, 0])) every converging call that would succeed with floats raises
    TypeError instead: the in-place addition cannot store floats. *)
Theorem C79_integer_refuted : forall g h o x r d c, rx_converge (ro_rx o) = true -> rx_conv_lms (ro_rx o) = true ->
  nth_error h (ro_ffe o) = Some c -> c_kind c = KInt ->
  receive (Some g) (view h o) x = Done (Ok (r, d)) -> share_receive (Some g) h o x = Done (Raise TypeError).
Proof. exact integer_raises. Qed.
Print Assumptions C79_integer_refuted.
Example C79_case_integer : run_script KInt (Some intended_lms) ex_script = None /\ run_alone KInt (Some intended_lms) 0 ex_script <> None /\ run_script KInt None idle_script <> None.
Proof. split; [vm_compute; reflexivity|split; vm_compute; discriminate]. Qed.
(** A list is not written into: the receiver that converges gets an array of its own (object 2), the caller's list stays. *)
Example C79_case_list : option_map fst (run_script KList (Some intended_lms) ex_script) = Some [[0; 1; 0]; [16182567 # 65536]; [80912835 # 8192; 80921027 # 8192; 80912835 # 8192]]%Q.
Proof. vm_compute. reflexivity. Qed.
(** Two receivers with lists for both taps are private although they share them; the converging one does not disturb the other. *)
Definition list_world : option world :=
  match mapping_data_init PAM4 ex_levels (ofZ 2) (ofZ 3), eq_settings [mk_cell KList (map ofZ [0; 1; 0]); mk_cell KList (map ofZ [0])] 1 1 1 (Some 0%nat) (Some 1%nat) (Some ex_levels) None None with
  | Done (Ok m), Ok (h, e, p, q) =>
    let s := mk_st 2 (adc_init 8 0 "ss" 2 1 (Some 1)) e p q m ex_cd (ofZ 1 / ofZ 1024)%Qc (ofZ 1) in
    Some (mk_world h [s] [new_receiver s; new_receiver s])
  | _, _ => None
  end.
Example C79_case_private : match list_world with
  | Some w => (forall i oi, nth_error (w_objs w) i = Some oi -> private_taps w ex_script i oi) /\
      match exec_all (Some intended_lms) w ex_script with Done (Ok (_, outs)) => bits_of 1 outs = [[1; 0; 1; 1; 0; 1; 1; 0]]%Q | _ => False end
  | None => False
  end.
Proof.
  destruct list_world as [w|] eqn:E.
  2:{ exfalso. assert (X : match list_world with Some _ => True | None => False end) by (vm_compute; exact I). rewrite E in X. exact X. }
  split.
  - assert (X : match list_world with Some w => map c_kind (w_heap w) = [KList; KList] /\ map (fun o => (ro_ffe o, ro_dfe o)) (w_objs w) = [(0%nat, 1%nat); (0%nat, 1%nat)] | None => False end) by (vm_compute; repeat split; reflexivity).
    rewrite E in X. destruct X as (XH & XO). intros i oi EI.
    assert (R : ro_ffe oi = 0%nat /\ ro_dfe oi = 1%nat).
    { assert (Y : nth_error (map (fun o => (ro_ffe o, ro_dfe o)) (w_objs w)) i = Some (ro_ffe oi, ro_dfe oi)) by (rewrite nth_error_map, EI; reflexivity).
      rewrite XO in Y. destruct i as [|[|i]]; cbn in Y; try (destruct i; discriminate Y); injection Y as <- <-; auto. }
    destruct R as (R1 & R2). destruct (w_heap w) as [|c0 [|c1 h]] eqn:EH; try discriminate XH. cbn [map] in XH. injection XH as K0 K1 _.
    unfold private_taps, private. rewrite R1, R2, EH. split; [exists c0; cbn; auto|]. split; [exists c1; cbn; auto|]. left. discriminate.
  - assert (X : match list_world with Some w => match exec_all (Some intended_lms) w ex_script with Done (Ok (_, outs)) => bits_of 1 outs = [[1; 0; 1; 1; 0; 1; 1; 0]]%Q | _ => False end | None => False end) by (vm_compute; reflexivity).
    rewrite E in X. exact X.
Qed.
(** Two settings objects made without taps: every receiver has float arrays of its own, and converging one leaves the other
    alone. *)
Definition own_world : option world :=
  match mapping_data_init PAM4 ex_levels (ofZ 2) (ofZ 3), eq_settings [] 1 1 1 None None (Some ex_levels) None None with
  | Done (Ok m), Ok (h, e, p, q) =>
    match eq_settings h 1 1 1 None None (Some ex_levels) None None with
    | Ok (h2, e2, p2, q2) =>
      let s e p q := mk_st 2 (adc_init 8 0 "ss" 2 1 (Some 1)) e p q m ex_cd (ofZ 1 / ofZ 1024)%Qc (ofZ 1) in
      Some (mk_world h2 [s e p q; s e2 p2 q2] [new_receiver (s e p q); new_receiver (s e2 p2 q2)])
    | _ => None
    end
  | _, _ => None
  end.
Example C79_case_own : match own_world with
  | Some w => (forall i oi, nth_error (w_objs w) i = Some oi -> private_taps w ex_script i oi) /\
      match exec_all (Some intended_lms) w ex_script with
      | Done (Ok (w', outs)) => bits_of 1 outs = [[1; 0; 1; 1; 0; 1; 1; 0]]%Q /\ nth 2 (taps_in w') [] = [0; 1; 0]%Q /\ nth 0 (taps_in w') [] <> [0; 1; 0]%Q
      | _ => False
      end
  | None => False
  end.
Proof.
  destruct own_world as [w|] eqn:E.
  2:{ exfalso. assert (X : match own_world with Some _ => True | None => False end) by (vm_compute; exact I). rewrite E in X. exact X. }
  split.
  - assert (X : match own_world with Some w => map c_kind (w_heap w) = [KFloat; KFloat; KFloat; KFloat] /\ map (fun o => (ro_ffe o, ro_dfe o)) (w_objs w) = [(0%nat, 1%nat); (2%nat, 3%nat)] | None => False end) by (vm_compute; repeat split; reflexivity).
    rewrite E in X. destruct X as (XH & XO).
    assert (R : forall i oi, nth_error (w_objs w) i = Some oi -> (i = 0%nat /\ ro_ffe oi = 0%nat /\ ro_dfe oi = 1%nat) \/ (i = 1%nat /\ ro_ffe oi = 2%nat /\ ro_dfe oi = 3%nat)).
    { intros i oi EI. assert (Y : nth_error (map (fun o => (ro_ffe o, ro_dfe o)) (w_objs w)) i = Some (ro_ffe oi, ro_dfe oi)) by (rewrite nth_error_map, EI; reflexivity).
      rewrite XO in Y. destruct i as [|[|i]]; cbn in Y; try (destruct i; discriminate Y); injection Y as <- <-; auto. }
    assert (K : forall p, (p < 4)%nat -> exists c, nth_error (w_heap w) p = Some c /\ c_kind c = KFloat).
    { intros p L. destruct (nth_error (w_heap w) p) as [c|] eqn:EP.
      - exists c. split; [reflexivity|]. assert (Y : nth_error (map c_kind (w_heap w)) p = Some (c_kind c)) by (rewrite nth_error_map, EP; reflexivity). rewrite XH in Y.
        destruct p as [|[|[|[|p]]]]; cbn in Y; try lia; congruence.
      - apply nth_error_None in EP. apply (f_equal (@List.length akind)) in XH. rewrite map_length in XH. cbn in XH. lia. }
    assert (PR : forall i p, (p < 4)%nat -> (p / 2 = i)%nat -> private w ex_script i p).
    { intros i p L D. destruct (K p L) as (c & K1 & K2). exists c. split; [exact K1|]. right. split; [exact K2|]. split; [|repeat constructor; intros []].
      intros j o N EJ. destruct (R _ _ EJ) as [(-> & A & B)|(-> & A & B)]; rewrite A, B; split; intros <-; cbn in D; congruence. }
    intros i oi EI. unfold private_taps. destruct (R _ _ EI) as [(-> & A & B)|(-> & A & B)]; rewrite A, B; (split; [apply PR; [lia|reflexivity]|]; split; [apply PR; [lia|reflexivity]|]; left; lia).
  - assert (X : match own_world with Some w => match exec_all (Some intended_lms) w ex_script with
      | Done (Ok (w', outs)) => bits_of 1 outs = [[1; 0; 1; 1; 0; 1; 1; 0]]%Q /\ nth 2 (taps_in w') [] = [0; 1; 0]%Q /\ nth 0 (taps_in w') [] <> [0; 1; 0]%Q
      | _ => False end | None => False end) by (vm_compute; repeat split; try reflexivity; discriminate).
    rewrite E in X. exact X.
Qed.
