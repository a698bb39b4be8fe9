(** Properties C06-C10: bits to symbols, symbols to levels, and back. *)
From Verif Require Import Py B_list M_aux M_symbol M_levels S_symbol P_symbol P_map P_levels.
From Coq Require Import QArith Qabs Reals Qreals SpecFloat.
Open Scope Z_scope.

(** C06: bits -> symbols -> bits, all flags.  The last hypothesis excludes exactly the single-symbol case
    in which symbol2bin raises (next but one theorem). *)
Theorem C06_bits_roundtrip : forall (k : nat) (bs : list Z) (f : flags), (1 <= k)%nat -> bits bs ->
  (k = 1%nat \/ length bs / k <> 1 \/ (inv_msb f = false /\ inv_lsb f = false /\ bit_order_inv f = false))%nat ->
  exists syms, bin2symbol bs (2 ^ Z.of_nat k) f = Ok syms /\
    symbol2bin syms (2 ^ Z.of_nat k) f = Ok (firstn (length bs / k * k) bs).
Proof. exact roundtrip_bits. Qed.
Print Assumptions C06_bits_roundtrip.
(** C06: symbols -> bits -> symbols, all flags. *)
Theorem C06_symbols_roundtrip : forall (k : nat) (syms : list Z) (f : flags), (1 <= k)%nat ->
  Forall (fun s => 0 <= s < 2 ^ Z.of_nat k) syms ->
  (k = 1%nat \/ length syms <> 1 \/ (inv_msb f = false /\ inv_lsb f = false /\ bit_order_inv f = false))%nat ->
  exists bs, symbol2bin syms (2 ^ Z.of_nat k) f = Ok bs /\ length bs = (length syms * k)%nat /\ bits bs /\
    bin2symbol bs (2 ^ Z.of_nat k) f = Ok syms.
Proof. exact roundtrip_syms. Qed.
Print Assumptions C06_symbols_roundtrip.
(** C06 (finding): one symbol of k > 1 bits with any of the three flags raises. *)
Theorem C06_single_symbol_refuted : forall (k : nat) (s : Z) (f : flags), (2 <= k)%nat ->
  inv_msb f = true \/ inv_lsb f = true \/ bit_order_inv f = true ->
  symbol2bin [s] (2 ^ Z.of_nat k) f = Raise (if inv_msb f || inv_lsb f then IndexError else ValueError).
Proof. exact single_symbol_raises. Qed.
Print Assumptions C06_single_symbol_refuted.
Example C06_nonvacuous :
  bin2symbol [1; 0; 0; 1; 1; 1; 0] 4 (mk_flags true true false true) = Ok [3; 0; 2] /\
  symbol2bin [3; 0; 2] 4 (mk_flags true true false true) = Ok [1; 0; 0; 1; 1; 1].
Proof. split; reflexivity. Qed.

(** C07: number, value and range of the symbols. *)
Theorem C07_symbol_values : forall (k : nat) (bs : list Z) (f : flags), (1 <= k)%nat ->
  exists syms, bin2symbol bs (2 ^ Z.of_nat k) f = Ok syms /\ length syms = (length bs / k)%nat /\
    (forall j, (j < length bs / k)%nat -> nth j syms 0 = symbol_value k f bs j) /\
    (bits bs -> Forall (fun s => 0 <= s < 2 ^ Z.of_nat k) syms).
Proof. exact bin2symbol_value. Qed.
Print Assumptions C07_symbol_values.
(** C07: symbol counts up to 8192 that are not a power of two are rejected. *)
Theorem C07_rejects_non_powers : forall (bs : list Z) (n : Z) (f : flags), 1 <= n <= 8192 ->
  (forall k, 1 <= k -> n <> 2 ^ k) -> bin2symbol bs n f = Raise ValueError.
Proof. exact bin2symbol_rejects. Qed.
Print Assumptions C07_rejects_non_powers.
(** C07 (finding): not every non power of two is rejected: 16385 passes the np.isclose test and
    a stream of 13 ones is silently converted to no symbol at all. *)
Theorem C07_rejects_every_non_power_refuted :
  exists n bs f, (forall k, 0 <= k -> n <> 2 ^ k) /\ bits bs /\ length bs = 13%nat /\ bin2symbol bs n f = Ok [].
Proof.
  exists 16385, (repeat 1 13), (mk_flags false false false false). split.
  - intros k Hk E. destruct (Z.eq_dec k 0) as [->|]; [discriminate|].
    replace k with (1 + (k - 1)) in E by lia. rewrite Z.pow_add_r in E by lia. change (2 ^ 1) with 2 in E. lia.
  - split; [repeat (constructor; [right; reflexivity|]); constructor|]. split; [reflexivity|]. unfold bin2symbol. rewrite isclose_16385. vm_compute. reflexivity.
Qed.
Print Assumptions C07_rejects_every_non_power_refuted.
Example C07_nonvacuous :
  bin2symbol [1; 1; 0; 1; 0; 0; 1; 1] 8 (mk_flags false false false false) = Ok [3; 1] /\
  symbol_value 3 (mk_flags false false false false) [1; 1; 0; 1; 0; 0; 1; 1] 0 = 3 /\
  (forall k, 1 <= k -> 6 <> 2 ^ k) /\ bin2symbol [1] 6 (mk_flags false false false false) = Raise ValueError.
Proof.
  assert (H : forall k, 1 <= k -> 6 <> 2 ^ k).
  { intros k Hk E. destruct (Z_le_gt_dec k 2).
    - assert (k = 1 \/ k = 2) by lia. destruct H; subst; discriminate.
    - assert (2 ^ 3 <= 2 ^ k) by (apply Z.pow_le_mono_r; lia). change (2 ^ 3) with 8 in H. lia. }
  split; [reflexivity|]. split; [reflexivity|]. split; [exact H|]. apply C07_rejects_non_powers; [lia|exact H].
Qed.

(** C08: mapping then demapping, any shape. *)
Theorem C08_map_demap : forall (c : constellation) (pn : bool) (x : nda Z), length (data x) = size (shape x) ->
  Forall (fun i => 0 <= i < Z.of_nat (length (get_levels c))) (data x) ->
  exists y, mapping Z.opp (get_levels c) None pn x = Ok y /\ shape y = shape x /\
    fst (demapping c pn (mk_nda (shape y) (map inject_Z (data y)))) = Ok x.
Proof. exact map_demap. Qed.
Print Assumptions C08_map_demap.
(** C08: demapping decides for the nearest level: any disturbance smaller than half the level distance
    is removed. *)
Theorem C08_demap_noise_margin : forall (c : constellation) (pn : bool) (sig : nda Q) (syms : list nat),
  length (data sig) = size (shape sig) ->
  Forall2 (fun (x : Q) (i : nat) => (i < length (get_levels c))%nat /\
     (Qabs ((if pn then - x else x) - inject_Z (nth i (get_levels c) 0%Z)) <
       inject_Z match c with NRZ | PAM4 => 2%Z | OOK | PAM3 => 1%Z end / 2)%Q) (data sig) syms ->
  fst (demapping c pn sig) = Ok (mk_nda (shape sig) (map Z.of_nat syms)).
Proof. intros c pn sig syms Hs H. apply demapping_near; auto. Qed.
Print Assumptions C08_demap_noise_margin.
(** C08: which indices are accepted (any level type). *)
Theorem C08_mapping_indices : forall (A : Type) (neg : A -> A) (d : A) (lv : list A) (pn : bool) (x : nda Z),
  (Forall (fun i => - Z.of_nat (length lv) <= i < Z.of_nat (length lv)) (data x) ->
   mapping neg lv None pn x =
   Ok (mk_nda (shape x) (map (fun i => let v := nth (Z.to_nat (i mod Z.of_nat (length lv))) lv d in
                                       if pn then neg v else v) (data x)))) /\
  (Exists (fun i => ~ (- Z.of_nat (length lv) <= i < Z.of_nat (length lv))) (data x) ->
   mapping neg lv None pn x = Raise IndexError).
Proof. intros. split; [apply mapping_ok|apply mapping_out]. Qed.
Print Assumptions C08_mapping_indices.
(** C08: the level of every symbol: -1, 1 (NRZ), 0, 1 (OOK), -1, 0, 1 (PAM3), -3, -1, 1, 3 (PAM4). *)
Definition standard_level (c : constellation) (i : Z) : Z :=
  match c with NRZ => 2 * i - 1 | OOK => i | PAM3 => i - 1 | PAM4 => 2 * i - 3 end.
Definition symbol_count (c : constellation) : Z := match c with NRZ | OOK => 2 | PAM3 => 3 | PAM4 => 4 end.
Theorem C08_standard_levels : forall (c : constellation) (pn : bool) (x : nda Z), Forall (fun i => 0 <= i < symbol_count c) (data x) ->
  mapping Z.opp (get_levels c) None pn x = Ok (mk_nda (shape x) (map (fun i => if pn then - standard_level c i else standard_level c i) (data x))).
Proof.
  intros c pn x F. destruct (C08_mapping_indices Z Z.opp 0 (get_levels c) pn x) as [H _]. rewrite H.
  - do 2 f_equal. apply map_ext_in. intros i Hi. rewrite Forall_forall in F. specialize (F i Hi). destruct c; cbn [symbol_count] in F;
      (assert (i = 0 \/ i = 1 \/ i = 2 \/ i = 3) as [-> | [-> | [-> | ->]]] by lia); try lia; reflexivity.
  - eapply Forall_impl; [|exact F]. intros i Hi. destruct c; cbn in *; lia.
Qed.
Print Assumptions C08_standard_levels.
(** C08: custom levels replace the default ones, or raise ValueError if their number differs. *)
Theorem C08_mapping_custom_levels : forall (A : Type) (neg : A -> A) (lv cl : list A) (pn : bool) (x : nda Z),
  mapping neg lv (Some cl) pn x = if (length cl =? length lv)%nat then mapping neg cl None pn x else Raise ValueError.
Proof. intros. apply mapping_custom. Qed.
Print Assumptions C08_mapping_custom_levels.
Example C08_nonvacuous :
  mapping Z.opp (get_levels PAM4) None true (mk_nda [2; 2]%nat [0; 3; 2; 1]) = Ok (mk_nda [2; 2]%nat [3; -3; -1; 1]) /\
  fst (demapping PAM4 true (mk_nda [2; 2]%nat [25 # 10; (-21) # 10; (-1) # 10; 19 # 10]%Q)) = Ok (mk_nda [2; 2]%nat [0; 3; 2; 1]) /\
  mapping Z.opp (get_levels NRZ) None false (vec [-1; -2]) = Ok (vec [1; -1]) /\
  mapping Z.opp (get_levels NRZ) None false (vec [0; 2]) = Raise IndexError /\
  mapping Z.opp (get_levels NRZ) (Some [5; 6; 7]) false (vec [0]) = Raise ValueError.
Proof. repeat split; vm_compute; reflexivity. Qed.

(** C09: unit mean power. *)
Theorem C09_full_scale_unit_power : forall c : constellation, mean_sq_R (get_levels_fs c) = 1%R.
Proof. exact fs_power. Qed.
Print Assumptions C09_full_scale_unit_power.
(** C09: round trip over the reals ... *)
Theorem C09_full_scale_roundtrip : forall (c : constellation) (pn : bool) (x : nda Z), length (data x) = size (shape x) ->
  Forall (fun i => 0 <= i < Z.of_nat (length (get_levels c))) (data x) ->
  exists y, mapping Ropp (get_levels_fs c) None pn x = Ok y /\ shape y = shape x /\ fst (demapping_fs c pn y) = Ok x.
Proof. exact map_demap_fs. Qed.
Print Assumptions C09_full_scale_roundtrip.
(** ... with the same half-distance noise margin ... *)
Theorem C09_full_scale_noise_margin : forall (c : constellation) (pn : bool) (sig : nda R) (syms : list nat),
  length (data sig) = size (shape sig) ->
  Forall2 (fun (x : R) (i : nat) => (i < length (get_levels_fs c))%nat /\
     (Rabs ((if pn then - x else x) - nth i (get_levels_fs c) 0) <
       (nth 1 (get_levels_fs c) 0 - nth 0 (get_levels_fs c) 0) / 2)%R) (data sig) syms ->
  fst (demapping_fs c pn sig) = Ok (mk_nda (shape sig) (map Z.of_nat syms)).
Proof. exact demapping_fs_near. Qed.
Print Assumptions C09_full_scale_noise_margin.
(** ... and bit-exactly in IEEE binary64. *)
Theorem C09_full_scale_roundtrip_binary64 : forall (c : constellation) (pn : bool) (x : nda Z),
  length (data x) = size (shape x) ->
  Forall (fun i => 0 <= i < Z.of_nat (length (get_levels c))) (data x) ->
  exists y, mapping SFopp (get_levels_f64 c) None pn x = Ok y /\ shape y = shape x /\ fst (demapping_f64 c pn y) = Ok x.
Proof. exact map_demap_f64. Qed.
Print Assumptions C09_full_scale_roundtrip_binary64.
(** The levels in double precision are within 2^-52 of the exact ones. *)
Theorem C09_full_scale_accuracy : forall (c : constellation) (i : nat), (i < length (get_levels c))%nat ->
  (Rabs (Q2R (f64_to_Q (nth i (get_levels_f64 c) (fofZ 0))) - nth i (get_levels_fs c) 0) <= / 2 ^ 52)%R.
Proof. exact levels_f64_close. Qed.
Print Assumptions C09_full_scale_accuracy.
Example C09_nonvacuous : (* 1/sqrt 5 = 0.4472135954999579 as a double *)
  nth 2 (get_levels_f64 PAM4) (fofZ 0) = S754_finite false 8056283928194521 (-54) /\
  Forall (fun i => 0 <= i < Z.of_nat (length (get_levels PAM4))) [0; 1; 2; 3].
Proof. split; [vm_compute; reflexivity|]. repeat constructor; simpl; lia. Qed.

(** C10: what the caller's array looks like after the call. *)
Theorem C10_demapping_effect_on_argument : forall (c : constellation) (pn : bool) (sig : nda Q),
  snd (demapping c pn sig) = if pn then mk_nda (shape sig) (map Qopp (data sig)) else sig.
Proof. exact demapping_after. Qed.
Print Assumptions C10_demapping_effect_on_argument.
(** C10 (finding): calling demapping twice on the same array object gives two different answers. *)
Theorem C10_demapping_repeatable_refuted : exists (c : constellation) (sig : nda Q),
  fst (demapping c true sig) = Ok (vec [0; 1]) /\ fst (demapping c true (snd (demapping c true sig))) = Ok (vec [1; 0]).
Proof. exists NRZ, (vec [1; -1])%Q. split; vm_compute; reflexivity. Qed.
Print Assumptions C10_demapping_repeatable_refuted.
(** C10: with pn_inv = False it is repeatable. *)
Theorem C10_demapping_plain_repeatable : forall (c : constellation) (sig : nda Q),
  demapping c false (snd (demapping c false sig)) = demapping c false sig.
Proof. reflexivity. Qed.
Print Assumptions C10_demapping_plain_repeatable.
