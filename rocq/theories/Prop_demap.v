(** C88: demapping any sample. *)
From Verif Require Import Py B_list M_aux M_symbol M_levels S_estimfs S_demap P_demap.
From Coq Require Import Reals Lia Lra QArith Qabs.
Import List ListNotations.
Open Scope Z_scope.

(** The levels of S_demap.v are those of the constellations. *)
Theorem C88_ladder c : get_levels c = map (fun k => ladder c (Z.of_nat k)) (seq 0 (Z.to_nat (level_count c))).
Proof. destruct c; reflexivity. Qed.
(** Every sample belongs to exactly one position of the continued ladder, and no position is nearer. *)
Theorem C88_band c : (forall x, exists k, belongs c x k /\ (forall j, belongs c x j -> j = k) /\ forall j, (Qabs (x - inject_Z (ladder c k)) <= Qabs (x - inject_Z (ladder c j)))%Q) /\
  forall x, exists k, belongs_fs c x k /\ (forall j, belongs_fs c x j -> j = k) /\ forall j, (Rabs (x - IZR (ladder c k) / level_rms c) <= Rabs (x - IZR (ladder c j) / level_rms c))%R.
Proof.
  split; intros x; [|destruct (belongs_fs_unique c x) as (k & H & U); exists k; split; [auto|]; split; [auto|]; now apply belongs_fs_nearest].
  destruct (belongs_unique c x) as (k & H & U). exists k. split; [auto|]. split; [auto|]. now apply belongs_nearest.
Qed.
(** Demapping reads the table 0, ..., n-1 at the positions the samples (or, with pn_inv, the negated samples) belong to. *)
Theorem C88_demap c (pn : bool) (sig : nda Q) ks : length (data sig) = size (shape sig) ->
  Forall2 (fun x k => belongs c (if pn then (- x)%Q else x) k) (data sig) ks -> fst (demapping c pn sig) = demapped c ks (shape sig).
Proof. intros Hs H. unfold demapping. rewrite levels_count. apply demapping_with_any; auto. clear Hs. induction H as [|x k l m B _ IH]; constructor; auto. now apply belongs_round. Qed.
(** The same with full_scale. *)
Theorem C88_demap_fs c (pn : bool) (sig : nda R) ks : length (data sig) = size (shape sig) ->
  Forall2 (fun x k => belongs_fs c (if pn then (- x)%R else x) k) (data sig) ks -> fst (demapping_fs c pn sig) = demapped c ks (shape sig).
Proof. intros Hs H. unfold demapping_fs. rewrite P_levels.fs_length, levels_count. apply demapping_with_any; auto. clear Hs. induction H as [|x k l m B _ IH]; constructor; auto. now apply belongs_fs_round. Qed.
(** Samples that belong to a level of the constellation come out as its number. *)
Theorem C88_inside c (pn : bool) (sig : nda Q) ks : length (data sig) = size (shape sig) -> Forall (fun k => 0 <= k < level_count c) ks ->
  Forall2 (fun x k => belongs c (if pn then (- x)%Q else x) k) (data sig) ks -> fst (demapping c pn sig) = Ok (mk_nda (shape sig) ks).
Proof.
  intros Hs Hk H. rewrite (C88_demap c pn sig ks Hs H). unfold demapped. assert (E : forall k, In k ks -> table_entry c k = Some k).
  { intros k Hi. rewrite Forall_forall in Hk. specialize (Hk k Hi). unfold table_entry. destruct (Z.leb_spec 0 k), (Z.ltb_spec k (level_count c)); try lia. reflexivity. }
  replace (existsb _ ks) with false. 2:{ symmetry. apply Bool.not_true_is_false. intros Ex. apply existsb_exists in Ex as (k & Hi & Ek). now rewrite (E k Hi) in Ek. }
  do 2 f_equal. rewrite <- (map_id ks) at 2. apply map_ext_in. intros k Hi. now rewrite (E k Hi).
Qed.
(** Whatever the other samples are, one sample above the top level by more than half a distance makes the call raise. *)
Theorem C88_above c (pn : bool) (sig : nda Q) x : length (data sig) = size (shape sig) -> In x (data sig) -> (inject_Z (2 * ladder c (level_count c - 1) + spacing c) < 2 * (if pn then - x else x))%Q ->
  fst (demapping c pn sig) = Raise IndexError.
Proof.
  intros Hs Hi Hx. set (f := fun x => demap_idx (get_levels c) (if pn then (- x)%Q else x)). rewrite (C88_demap c pn sig (map f (data sig)) Hs).
  2:{ clear. induction (data sig); constructor; auto. now apply belongs_round. }
  unfold demapped. replace (existsb _ _) with true; auto. symmetry. apply existsb_exists. exists (f x). split; [now apply in_map|]. assert (B : belongs c (if pn then (- x)%Q else x) (f x)) by now apply belongs_round.
  set (y := (if pn then - x else x)%Q) in *. assert (G : level_count c <= f x).
  { apply Z.nlt_ge. intros L. assert (J : (inject_Z (ladder c (f x)) <= inject_Z (ladder c (level_count c - 1)))%Q) by (rewrite <- Zle_Qle; unfold ladder; pose proof (spacing_pos c); nia).
    assert (D : (y - inject_Z (ladder c (f x)) <= Qabs (y - inject_Z (ladder c (f x))))%Q) by apply Qle_Qabs. rewrite inject_Z_plus, inject_Z_mult in Hx. change (inject_Z 2) with 2%Q in Hx. destruct B as [B|[B _]]; Lqa.lra. }
  unfold table_entry. assert (0 < level_count c) by (destruct c; reflexivity). destruct (Z.leb_spec 0 (f x)), (Z.ltb_spec (f x) (level_count c)); try lia; cbn [andb]. destruct (Z.ltb_spec (f x) 0); try lia. now rewrite Bool.andb_false_r.
Qed.
(** (Finding.) A sample below the lowest level by more than half a distance (up to one and a half) comes out as the highest symbol, the level farthest from it: the position -1 reads numpy's last table entry. *)
Theorem C88_below_refuted c x : (inject_Z (2 * ladder c 0 - 3 * spacing c) < 2 * x)%Q -> (2 * x < inject_Z (2 * ladder c 0 - spacing c))%Q ->
  fst (demapping c false (mk_nda [1%nat] [x])) = Ok (mk_nda [1%nat] [level_count c - 1]) /\
  forall j, 0 <= j < level_count c -> (Qabs (x - inject_Z (ladder c j)) <= Qabs (x - inject_Z (ladder c (level_count c - 1))))%Q.
Proof.
  intros H1 H2. unfold Z.sub in H1, H2. rewrite inject_Z_plus, inject_Z_opp, !inject_Z_mult in H1. rewrite inject_Z_plus, inject_Z_opp, inject_Z_mult in H2. change (inject_Z 2) with 2%Q in *. change (inject_Z 3) with 3%Q in *. split.
  - rewrite (C88_demap c false _ [-1]); [destruct c; reflexivity|reflexivity|]. constructor; [|constructor]. left. replace (ladder c (-1)) with (ladder c 0 + - spacing c) by (unfold ladder; lia). rewrite inject_Z_plus, inject_Z_opp.
    set (a := inject_Z (ladder c 0)) in *. set (s := inject_Z (spacing c)) in *. assert (Qabs (x - (a + - s)) < s * (1 # 2))%Q by (apply Qabs_Qlt_condition; split; Lqa.lra). Lqa.lra.
  - intros j Hj. assert (A : (inject_Z (ladder c 0) <= inject_Z (ladder c j))%Q) by (rewrite <- Zle_Qle; unfold ladder; pose proof (spacing_pos c); nia).
    assert (B : (inject_Z (ladder c j) <= inject_Z (ladder c (level_count c - 1)))%Q) by (rewrite <- Zle_Qle; unfold ladder; pose proof (spacing_pos c); nia).
    assert (S0 : (0 < inject_Z (spacing c))%Q) by (change 0%Q with (inject_Z 0); rewrite <- Zlt_Qlt; apply spacing_pos). rewrite !Qabs_neg by Lqa.lra. Lqa.lra.
Qed.

Example C88_ex : fst (demapping PAM4 false (mk_nda [5%nat] [(-45)#10; (-35)#10; 0#1; 2#1; 39#10])) = Ok (mk_nda [5%nat] [3; 0; 2; 2; 3]).
Proof. reflexivity. Qed.
Example C88_ex_raise : fst (demapping PAM4 false (mk_nda [2%nat] [1#1; 41#10])) = Raise IndexError /\ fst (demapping PAM4 false (mk_nda [2%nat] [1#1; (-14)#1])) = Raise IndexError.
Proof. split; reflexivity. Qed.
Example C88_ex_band : belongs PAM4 0 2 /\ ~ belongs PAM4 0 1 /\ belongs OOK ((-3)#5) (-1).
Proof. split; [right; split; reflexivity|]. split; [|left; reflexivity]. intros [H|[_ H]]; [vm_compute in H; discriminate|discriminate]. Qed.
Example C88_ex_fs : belongs_fs PAM4 0 2 /\ belongs_fs OOK (-1) (-1).
Proof. split; apply belongs_fs_round; rewrite demap_idx_R_arg; apply round_R_iff; pose proof (P_estimfs.level_rms_pos PAM4) as P; pose proof (P_estimfs.level_rms_pos OOK) as P'.
  - right. split; [|reflexivity]. unfold lowest, spacing. replace ((0 - -3 / level_rms PAM4) / (2 / level_rms PAM4))%R with (3/2)%R by (field; lra). rewrite Rabs_left; lra.
  - left. unfold lowest, spacing. assert (E : ((-1 - 0 / level_rms OOK) / (1 / level_rms OOK) = - level_rms OOK)%R) by (field; lra). rewrite E. cbn [level_rms] in *. assert (sqrt (1/2) * sqrt (1/2) = 1/2)%R by (apply sqrt_sqrt; lra). apply Rabs_def1; nra.
Qed.
Print Assumptions C88_ladder.
Print Assumptions C88_band.
Print Assumptions C88_demap.
Print Assumptions C88_demap_fs.
Print Assumptions C88_inside.
Print Assumptions C88_above.
Print Assumptions C88_below_refuted.
