(** Proofs for C88: demapping any sample. *)
From Verif Require Import Py B_list M_aux M_symbol M_levels S_estimfs S_demap P_map P_levels P_rxparts P_estimfs.
From Coq Require Import Reals Lra Lia QArith Qabs Qround.
Import List ListNotations.
Open Scope Z_scope.

Lemma take_table c ks : np_take (map Z.of_nat (seq 0 (Z.to_nat (level_count c)))) ks =
  if existsb (fun k => match table_entry c k with None => true | _ => false end) ks then Raise IndexError else Ok (map (fun k => match table_entry c k with Some s => s | None => 0 end) ks).
Proof.
  set (n := level_count c). assert (Hn : 0 < n) by (destruct c; reflexivity). set (l := map Z.of_nat _). assert (Ll : Z.of_nat (length l) = n) by (unfold l; rewrite map_length, seq_length; lia).
  assert (T : forall k, (exists s, table_entry c k = Some s) <-> - n <= k < n).
  { intros k. unfold table_entry. fold n. destruct (Z.leb_spec 0 k), (Z.ltb_spec k n), (Z.leb_spec (- n) k), (Z.ltb_spec k 0); cbn; split; try lia; eauto; intros (s & E); discriminate. }
  destruct (existsb _ ks) eqn:Ex.
  - apply np_take_out. apply existsb_exists in Ex as (k & Hk & Ek). apply Exists_exists. exists k. split; auto. rewrite Ll. intros R. apply T in R as (s & E). now rewrite E in Ek.
  - assert (F : forall k, In k ks -> - n <= k < n). { intros k Hk. apply T. destruct (table_entry c k) eqn:E; eauto. exfalso. assert (existsb (fun k => match table_entry c k with None => true | _ => false end) ks = true) by (apply existsb_exists; exists k; rewrite E; auto). congruence. }
    rewrite (np_take_ok _ 0) by (apply Forall_forall; rewrite Ll; auto). f_equal. apply map_ext_in. intros k Hk. specialize (F k Hk). rewrite Ll. assert (U : 0 <= k mod n < n) by (apply Z.mod_pos_bound; lia).
    unfold l. rewrite nth_map_seq by (fold n; lia). cbn [Nat.add]. rewrite Z2Nat.id by lia. unfold table_entry. fold n. destruct (Z.leb_spec 0 k), (Z.ltb_spec k n); cbn [andb]; try lia; [now rewrite Z.mod_small|].
    destruct (Z.leb_spec (- n) k), (Z.ltb_spec k 0); cbn [andb]; try lia. symmetry. apply (Z.mod_unique_pos _ _ (-1)); lia.
Qed.
Lemma demapping_with_any {A} (neg : A -> A) to_idx c (pn : bool) (sig : nda A) (ks : list Z) : length (data sig) = size (shape sig) ->
  Forall2 (fun (x : A) (k : Z) => to_idx (if pn then neg x else x) = k) (data sig) ks -> fst (demapping_with neg to_idx (Z.to_nat (level_count c)) pn sig) = demapped c ks (shape sig).
Proof.
  intros Hs H. unfold demapping_with. cbn [fst]. assert (Hd : map to_idx (data (if pn then mk_nda (shape sig) (map neg (data sig)) else sig)) = ks).
  { clear Hs. destruct sig as [sh d]. cbn [data shape] in *. replace (data (if pn then mk_nda sh (map neg d) else mk_nda sh d)) with (map (fun x => if pn then neg x else x) d) by (destruct pn; cbn [data]; auto; now rewrite map_id).
    rewrite map_map. induction H as [|x k l m Hx _ IH]; auto. cbn [map]. now rewrite IH, Hx. }
  rewrite Hd, take_table. unfold demapped. replace (shape (if pn then mk_nda (shape sig) (map neg (data sig)) else sig)) with (shape sig) by (destruct pn; reflexivity). destruct (existsb _ ks); auto. cbn [bind]. unfold reshape. rewrite map_length.
  assert (L : length ks = length (data sig)) by (clear - H; induction H; cbn; auto). rewrite L, Hs, Nat.eqb_refl. reflexivity.
Qed.
Lemma levels_count c : length (get_levels c) = Z.to_nat (level_count c). Proof. destruct c; reflexivity. Qed.
Lemma demap_idx_arg c x : demap_idx (get_levels c) x = round_half_even ((x - inject_Z (lowest c)) / inject_Z (spacing c))%Q.
Proof. destruct c; reflexivity. Qed.
Lemma spacing_pos c : 0 < spacing c. Proof. destruct c; reflexivity. Qed.
Lemma round_R_iff x n : round_R x = n <-> ((Rabs (x - IZR n) < 1 / 2)%R \/ (Rabs (x - IZR n) = 1 / 2)%R /\ Z.even n = true).
Proof.
  split.
  - intros <-. unfold round_R. destruct (base_Int_part x) as [B1 B2]. set (f := Int_part x) in *. destruct (Rlt_dec _ _) as [D|D]; [left; rewrite Rabs_pos_eq; lra|]. destruct (Rlt_dec _ _) as [D2|D2]; [left; rewrite plus_IZR; rewrite Rabs_left1; lra|].
    right. destruct (Z.even f) eqn:Ev; [split; auto; rewrite Rabs_pos_eq; lra|]. split; [rewrite plus_IZR, Rabs_left1; lra|]. now rewrite Z.even_add, Ev.
  - intros [H|[H Ev]]; [now apply round_R_near|]. unfold round_R. destruct (base_Int_part x) as [B1 B2]. set (f := Int_part x) in *. destruct (Rcase_abs (x - IZR n)) as [L|L].
    + rewrite Rabs_left in H by auto. assert (f = n - 1). { assert (f < n) by (apply lt_IZR; lra). assert (n - 2 < f) by (apply lt_IZR; rewrite minus_IZR; lra). lia. } rewrite H0, minus_IZR in *. destruct (Rlt_dec _ _); [exfalso; lra|]. destruct (Rlt_dec _ _); [exfalso; lra|].
      replace (Z.even (n - 1)) with false by (now rewrite Z.even_sub, Ev). lia.
    + rewrite Rabs_right in H by auto. assert (f = n). { assert (f < n + 1) by (apply lt_IZR; rewrite plus_IZR; lra). assert (n - 1 < f) by (apply lt_IZR; rewrite minus_IZR; lra). lia. } rewrite H0 in *. destruct (Rlt_dec _ _); [exfalso; lra|]. destruct (Rlt_dec _ _); [exfalso; lra|]. now rewrite Ev.
Qed.
Lemma level_rms_rms c : rms c = level_rms c.
Proof. unfold rms, mean_sq_R. destruct c; cbn [get_levels map fold_right length level_rms INR]; [transitivity (sqrt 1); [f_equal; field|apply sqrt_1]| | |]; f_equal; field. Qed.
Lemma demap_idx_R_arg c x : demap_idx_R (get_levels_fs c) x = round_R ((x - IZR (lowest c) / level_rms c) / (IZR (spacing c) / level_rms c)).
Proof.
  unfold demap_idx_R. rewrite fs_eq, level_rms_rms. pose proof (level_rms_pos c) as P. set (g := level_rms c) in *. assert (Q : (0 < / g)%R) by now apply Rinv_0_lt_compat.
  rewrite rmin_hd. 2:{ destruct c; cbn [get_levels map hd]; unfold Rdiv; repeat constructor; lra. }
  f_equal. destruct c; cbn [get_levels map hd nth lowest spacing]; unfold Rdiv; f_equal; try (f_equal; lra).
Qed.
Lemma belongs_fs_round c x k : belongs_fs c x k <-> demap_idx_R (get_levels_fs c) x = k.
Proof.
  rewrite demap_idx_R_arg, round_R_iff. unfold belongs_fs, ladder. rewrite plus_IZR, mult_IZR. pose proof (level_rms_pos c) as P. set (g := level_rms c) in *. assert (Hs : (0 < IZR (spacing c))%R) by (apply IZR_lt, spacing_pos). set (s := IZR (spacing c)) in *. set (lo := IZR (lowest c)). set (q := IZR k).
  assert (D : (0 < s / g)%R) by now apply Rdiv_lt_0_compat. set (t := ((x - lo / g) / (s / g))%R). replace (x - (lo + q * s) / g)%R with ((t - q) * (s / g))%R by (unfold t; field; lra). rewrite Rabs_mult, (Rabs_pos_eq (s / g)) by lra.
  set (w := (s / g)%R) in *. set (a := Rabs (t - q)). cbv zeta. assert (A : (2 * (a * w) < w <-> a < 1 / 2)%R) by (split; intros; nra). assert (B : (2 * (a * w) = w <-> a = 1 / 2)%R). { split; intros; [|subst a; nra]. apply (Rmult_eq_reg_r w); lra. }
  now rewrite A, B.
Qed.
Lemma belongs_fs_nearest c x k : belongs_fs c x k -> forall j, (Rabs (x - IZR (ladder c k) / level_rms c) <= Rabs (x - IZR (ladder c j) / level_rms c))%R.
Proof.
  intros H j. destruct (Z.eq_dec j k) as [->|N]; [apply Rle_refl|]. pose proof (level_rms_pos c) as P. assert (Q : (0 < / level_rms c)%R) by now apply Rinv_0_lt_compat.
  assert (D : (IZR (spacing c) / level_rms c <= Rabs (IZR (ladder c j) / level_rms c - IZR (ladder c k) / level_rms c))%R).
  { replace (IZR (ladder c j) / level_rms c - IZR (ladder c k) / level_rms c)%R with (IZR (ladder c j - ladder c k) * / level_rms c)%R by (rewrite minus_IZR; field; lra). rewrite Rabs_mult, <- abs_IZR, (Rabs_pos_eq (/ level_rms c)) by lra.
    apply Rmult_le_compat_r; [lra|]. apply IZR_le. unfold ladder. pose proof (spacing_pos c). nia. }
  set (a := (IZR (ladder c j) / level_rms c)%R) in *. set (b := (IZR (ladder c k) / level_rms c)%R) in *. assert (T : (Rabs (a - b) <= Rabs (x - b) + Rabs (x - a))%R).
  { rewrite (Rabs_minus_sym x a). replace (a - b)%R with ((x - b) + (a - x))%R by ring. apply Rabs_triang. }
  unfold belongs_fs in H. fold b in H. cbv zeta in H. destruct H as [H|[H _]]; lra.
Qed.
From Coq Require Import Lqa.
Lemma belongs_round c x k : belongs c x k <-> demap_idx (get_levels c) x = k.
Proof.
  rewrite demap_idx_arg, round_iff. unfold belongs, ladder. set (s := spacing c). assert (Hs : (0 < inject_Z s)%Q) by (change 0%Q with (inject_Z 0); rewrite <- Zlt_Qlt; apply spacing_pos).
  rewrite inject_Z_plus, inject_Z_mult. set (sq := inject_Z s) in *. set (lo := inject_Z (lowest c)). set (kq := inject_Z k). set (t := ((x - lo) / sq)%Q). assert (Ex : (x == lo + t * sq)%Q) by (unfold t; field; lra).
  assert (E : (x - (lo + kq * sq) == (t - kq) * sq)%Q) by (rewrite Ex; ring). rewrite E, Qabs_Qmult, (Qabs_pos sq) by lra. clearbody t. clear E Ex x.
  assert (A : (2 * (Qabs (t - kq) * sq) < sq)%Q <-> (Qabs (t - kq) < 1 # 2)%Q). { rewrite <- (Qmult_lt_r (Qabs (t - kq)) (1 # 2) sq Hs). set (a := (Qabs (t - kq) * sq)%Q). split; intros; lra. }
  assert (B : (2 * (Qabs (t - kq) * sq) == sq)%Q <-> (Qabs (t - kq) == 1 # 2)%Q). { assert (Hz : ~ (sq == 0)%Q) by lra. rewrite <- (Qmult_inj_r (Qabs (t - kq)) (1 # 2) sq Hz). set (a := (Qabs (t - kq) * sq)%Q). split; intros; lra. }
  rewrite A, B. clear A B. rewrite Qabs_Qlt_condition. split.
  - intros [[H1 H2]|[H Ev]]; [left; lra|right; split; auto]. destruct (Qlt_le_dec (t - kq) 0) as [L|L]; [rewrite Qabs_neg in H by lra; left; lra|rewrite Qabs_pos in H by lra; right; lra].
  - intros [[H1 H2]|[Ev [H|H]]]; [left; lra| |]; right; split; auto; [rewrite Qabs_neg; lra|rewrite Qabs_pos; lra].
Qed.
Lemma belongs_unique c x : exists k, belongs c x k /\ forall j, belongs c x j -> j = k.
Proof. exists (demap_idx (get_levels c) x). split; [now apply belongs_round|]. intros j H. now apply belongs_round in H. Qed.
Lemma belongs_fs_unique c x : exists k, belongs_fs c x k /\ forall j, belongs_fs c x j -> j = k.
Proof. exists (demap_idx_R (get_levels_fs c) x). split; [now apply belongs_fs_round|]. intros j H. now apply belongs_fs_round in H. Qed.
Lemma belongs_nearest c x k : belongs c x k -> forall j, (Qabs (x - inject_Z (ladder c k)) <= Qabs (x - inject_Z (ladder c j)))%Q.
Proof.
  intros H j. destruct (Z.eq_dec j k) as [->|N]; [apply Qle_refl|]. assert (D : (inject_Z (spacing c) <= Qabs (inject_Z (ladder c j) - inject_Z (ladder c k)))%Q).
  { unfold Qminus. rewrite <- inject_Z_opp, <- inject_Z_plus. change (inject_Z (spacing c) <= inject_Z (Z.abs (ladder c j + - ladder c k)))%Q. rewrite <- Zle_Qle. unfold ladder. pose proof (spacing_pos c). nia. }
  assert (T : (Qabs (inject_Z (ladder c j) - inject_Z (ladder c k)) <= Qabs (x - inject_Z (ladder c k)) + Qabs (x - inject_Z (ladder c j)))%Q).
  { rewrite (Qabs_Qminus x (inject_Z (ladder c j))). eapply Qle_trans; [|apply Qabs_triangle]. apply Qle_lteq. right. apply Qabs_wd. ring. }
  destruct H as [H|[H _]]; lra.
Qed.
