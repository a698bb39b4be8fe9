(** General list lemmas used by the proofs. *)
From Verif Require Import Py.
From Coq Require Import Permutation.
Ltac Zify.zify_post_hook ::= Z.div_mod_to_equations.

Lemma nth_ext_def {A} (d : A) (u v : list A) :
  length u = length v -> (forall i, (i < length u)%nat -> nth i u d = nth i v d) -> u = v.
Proof. intros. apply nth_ext with (d := d) (d' := d); auto. Qed.

Lemma map2_length {A B C} (f : A -> B -> C) u v :
  length (map2 f u v) = Nat.min (length u) (length v).
Proof. revert v; induction u; intros [|b v]; simpl; auto. Qed.

Lemma map2_nth {A B C} (f : A -> B -> C) u v i da db dc :
  (i < length u)%nat -> (i < length v)%nat -> nth i (map2 f u v) dc = f (nth i u da) (nth i v db).
Proof.
  revert v i; induction u; intros [|b v] [|i]; simpl; intros; try lia; auto.
  apply IHu; lia.
Qed.

Lemma map2_app {A B C} (f : A -> B -> C) u1 v1 u2 v2 :
  length u1 = length v1 -> map2 f (u1 ++ u2) (v1 ++ v2) = map2 f u1 v1 ++ map2 f u2 v2.
Proof. revert v1; induction u1; intros [|b v1]; simpl; intros; try lia; auto. f_equal; auto. Qed.

Lemma map2_map_l {A B C D} (f : A -> B -> C) (g : D -> A) u v :
  map2 f (map g u) v = map2 (fun x y => f (g x) y) u v.
Proof. revert v; induction u; intros [|b v]; simpl; auto. f_equal; auto. Qed.
Lemma map2_map_r {A B C D} (f : A -> B -> C) (g : D -> B) u v :
  map2 f u (map g v) = map2 (fun x y => f x (g y)) u v.
Proof. revert v; induction u; intros [|b v]; simpl; auto. f_equal; auto. Qed.
Lemma map_map2 {A B C D} (g : C -> D) (f : A -> B -> C) u v :
  map g (map2 f u v) = map2 (fun x y => g (f x y)) u v.
Proof. revert v; induction u; intros [|b v]; simpl; auto. f_equal; auto. Qed.
Lemma map2_comm {A C} (f : A -> A -> C) u v : (forall a b, f a b = f b a) -> map2 f u v = map2 f v u.
Proof. intros H; revert v; induction u; intros [|b v]; simpl; auto. f_equal; auto. Qed.

Lemma repeat_nth {A} (d x : A) n i : (i < n)%nat -> nth i (repeat x n) d = x.
Proof. revert i; induction n; intros [|i]; simpl; intros; try lia; auto. apply IHn; lia. Qed.

Lemma nth_firstn {A} (d : A) n i l : (i < n)%nat -> nth i (firstn n l) d = nth i l d.
Proof. revert i l; induction n; intros i [|a l]; simpl; intros; try lia; destruct i; auto. apply IHn; lia. Qed.
Lemma nth_skipn {A} (d : A) n i l : nth i (skipn n l) d = nth (n + i) l d.
Proof. revert l; induction n; intros [|a l]; simpl; auto. destruct i; auto. Qed.

Lemma skipn_skipn {A} a b (l : list A) : skipn a (skipn b l) = skipn (a + b) l.
Proof.
  revert l; induction b; intros l; [rewrite Nat.add_0_r; reflexivity|].
  rewrite Nat.add_succ_r. destruct l; simpl; auto. now rewrite skipn_nil.
Qed.
Lemma map_nth_lt {A B} (f : A -> B) l i da db : (i < length l)%nat -> nth i (map f l) db = f (nth i l da).
Proof. revert i; induction l; intros [|i]; simpl; intros; try lia; auto. apply IHl; lia. Qed.
Lemma nth_map_seq {B} (f : nat -> B) n i s db : (i < n)%nat -> nth i (map f (seq s n)) db = f (s + i)%nat.
Proof. intros. rewrite (map_nth_lt f _ i 0%nat) by (rewrite seq_length; lia). rewrite seq_nth; auto. Qed.

Lemma removelast_length {A} (l : list A) : length (removelast l) = (length l - 1)%nat.
Proof.
  induction l as [|a l IH]; simpl; auto. destruct l; simpl in *; auto. rewrite IH; lia.
Qed.
Lemma removelast_nth {A} (d : A) l i : (i < length l - 1)%nat -> nth i (removelast l) d = nth i l d.
Proof.
  revert i; induction l as [|a l IH]; intros i H; [simpl in *; lia|].
  destruct l as [|b l]; [simpl in *; lia|].
  change (removelast (a :: b :: l)) with (a :: removelast (b :: l)).
  destruct i; auto. cbn [nth]. apply IH. simpl in *; lia.
Qed.
Lemma removelast_firstn_eq {A} (l : list A) : removelast l = firstn (length l - 1) l.
Proof. rewrite removelast_firstn_len. f_equal. lia. Qed.
Lemma removelast_map2 {A B C} (f : A -> B -> C) u v :
  length u = length v -> removelast (map2 f u v) = map2 f (removelast u) (removelast v).
Proof.
  revert v; induction u as [|a u IH]; intros [|b v]; simpl; intros H; try lia; auto.
  destruct u as [|a' u], v as [|b' v]; simpl in *; try lia; auto.
  f_equal. apply (IH (b' :: v)). simpl; lia.
Qed.

Lemma Forall_nth_lt {A} (P : A -> Prop) l i d : Forall P l -> (i < length l)%nat -> P (nth i l d).
Proof. intros H Hi. rewrite Forall_forall in H. apply H, nth_In; auto. Qed.
Lemma Forall_removelast {A} (P : A -> Prop) l : Forall P l -> Forall P (removelast l).
Proof. rewrite removelast_firstn_eq. intros H. rewrite <- (firstn_skipn (length l - 1) l) in H. apply Forall_app in H; tauto. Qed.
Lemma Forall_firstn {A} (P : A -> Prop) n l : Forall P l -> Forall P (firstn n l).
Proof. intros H. rewrite <- (firstn_skipn n l) in H. apply Forall_app in H; tauto. Qed.
Lemma Forall_skipn {A} (P : A -> Prop) n l : Forall P l -> Forall P (skipn n l).
Proof. intros H. rewrite <- (firstn_skipn n l) in H. apply Forall_app in H; tauto. Qed.
Lemma Forall_rev_iff {A} (P : A -> Prop) l : Forall P l -> Forall P (rev l).
Proof. rewrite !Forall_forall. intros H x Hx. apply H. now apply in_rev. Qed.

(** * sums and dot products *)
Lemma sumZ_app u v : sumZ (u ++ v) = sumZ u + sumZ v.
Proof. induction u; simpl; lia. Qed.
Lemma sumZ_perm u v : Permutation u v -> sumZ u = sumZ v.
Proof. induction 1; simpl; lia. Qed.
Lemma sumZ_repeat x n : sumZ (repeat x n) = Z.of_nat n * x.
Proof. induction n; [simpl; lia|]. cbn [repeat]. change (sumZ (x :: repeat x n)) with (x + sumZ (repeat x n)). lia. Qed.
Lemma sumZ_map_ext {A} (f g : A -> Z) l : (forall x, In x l -> f x = g x) -> sumZ (map f l) = sumZ (map g l).
Proof. intros H. rewrite (map_ext_in f g); auto. Qed.
Lemma sumZ_map_add {A} (f g : A -> Z) l : sumZ (map (fun x => f x + g x) l) = sumZ (map f l) + sumZ (map g l).
Proof. induction l; simpl; lia. Qed.
Lemma sumZ_map_mul {A} c (f : A -> Z) l : sumZ (map (fun x => c * f x) l) = c * sumZ (map f l).
Proof. induction l; simpl; [lia|]. rewrite IHl; lia. Qed.
Lemma sumZ_map_const {A} c (l : list A) : sumZ (map (fun _ => c) l) = Z.of_nat (length l) * c.
Proof. induction l; [simpl; lia|]. cbn [map]. change (sumZ (c :: map (fun _ => c) l)) with (c + sumZ (map (fun _ => c) l)). cbn [length]. lia. Qed.
Lemma sumZ_le {A} (f g : A -> Z) l : (forall x, In x l -> f x <= g x) -> sumZ (map f l) <= sumZ (map g l).
Proof. induction l; simpl; intros H; [lia|]. specialize (H a (or_introl eq_refl)) as H1. assert (sumZ (map f l) <= sumZ (map g l)) by (apply IHl; intros; apply H; auto). lia. Qed.

Lemma dotZ_app u1 v1 u2 v2 : length u1 = length v1 -> dotZ (u1 ++ u2) (v1 ++ v2) = dotZ u1 v1 + dotZ u2 v2.
Proof. revert v1; induction u1; intros [|b v1]; simpl; intros; try lia. rewrite IHu1; lia. Qed.
Lemma dotZ_sum u v : dotZ u v = sumZ (map2 Z.mul u v).
Proof. revert v; induction u; intros [|b v]; simpl; auto. f_equal; auto. Qed.
Lemma dotZ_sum_nth u v : length u = length v ->
  dotZ u v = sumZ (map (fun j => nth j u 0 * nth j v 0) (seq 0 (length u))).
Proof.
  revert v; induction u; intros [|b v]; simpl; intros; try lia.
  rewrite <- seq_shift, map_map. rewrite IHu by lia. reflexivity.
Qed.
Lemma dotZ_comm u v : dotZ u v = dotZ v u.
Proof. revert v; induction u; intros [|b v]; simpl; auto. rewrite IHu; lia. Qed.

(** * res helpers *)
Lemma map_res_ok {A B} (f : A -> res B) (g : A -> B) l :
  (forall x, In x l -> f x = Ok (g x)) -> map_res f l = Ok (map g l).
Proof.
  induction l; simpl; intros H; auto. rewrite H by auto. simpl. rewrite IHl; auto.
Qed.
Lemma map_res_inv {A B} (f : A -> res B) l r :
  map_res f l = Ok r -> length r = length l /\
  forall i da db, (i < length l)%nat -> f (nth i l da) = Ok (nth i r db).
Proof.
  revert r; induction l as [|a l IH]; simpl; intros r H.
  - inversion H; subst. split; auto. simpl; lia.
  - destruct (f a) eqn:E; simpl in H; [|discriminate].
    destruct (map_res f l) eqn:E2; simpl in H; [|discriminate].
    inversion H; subst. destruct (IH _ eq_refl) as [H1 H2]. split; [simpl; lia|].
    intros [|i] da db Hi; simpl; auto. apply H2. lia.
Qed.

(** * np_index *)
Lemma np_index_pos n i : (i < n)%nat -> np_index n (Z.of_nat i) = Some i.
Proof.
  intros H. unfold np_index.
  replace (0 <=? Z.of_nat i) with true by (symmetry; apply Z.leb_le; lia).
  replace (Z.of_nat i <? Z.of_nat n) with true by (symmetry; apply Z.ltb_lt; lia).
  simpl. now rewrite Nat2Z.id.
Qed.
Lemma np_get_nth {A} (l : list A) i d : (i < length l)%nat -> np_get l (Z.of_nat i) = Ok (nth i l d).
Proof.
  intros H. unfold np_get. rewrite np_index_pos by auto.
  rewrite (nth_error_nth' l d H). reflexivity.
Qed.
Lemma np_get_Z {A} (l : list A) i d : 0 <= i < Z.of_nat (length l) -> np_get l i = Ok (nth (Z.to_nat i) l d).
Proof. intros H. rewrite <- (Z2Nat.id i) at 1 by lia. apply np_get_nth; lia. Qed.
Lemma np_get_high {A} (l : list A) i : Z.of_nat (length l) <= i -> np_get l i = Raise IndexError.
Proof.
  intros H. unfold np_get, np_index.
  replace (i <? Z.of_nat (length l)) with false by (symmetry; apply Z.ltb_ge; lia).
  rewrite andb_false_r.
  replace (i <? 0) with false by (symmetry; apply Z.ltb_ge; lia). now rewrite andb_false_r.
Qed.
Lemma np_get_neg {A} (l : list A) i d : - Z.of_nat (length l) <= i < 0 ->
  np_get l i = Ok (nth (Z.to_nat (i + Z.of_nat (length l))) l d).
Proof.
  intros H. unfold np_get, np_index.
  replace (0 <=? i) with false by (symmetry; apply Z.leb_gt; lia).
  replace (- Z.of_nat (length l) <=? i) with true by (symmetry; apply Z.leb_le; lia).
  replace (i <? 0) with true by (symmetry; apply Z.ltb_lt; lia). simpl.
  rewrite (nth_error_nth' l d) by lia. reflexivity.
Qed.
Lemma np_get_low {A} (l : list A) i : i < - Z.of_nat (length l) -> np_get l i = Raise IndexError.
Proof.
  intros H. unfold np_get, np_index.
  replace (0 <=? i) with false by (symmetry; apply Z.leb_gt; lia).
  replace (- Z.of_nat (length l) <=? i) with false by (symmetry; apply Z.leb_gt; lia). reflexivity.
Qed.

(** * slices *)
Lemma slice_to_nat {A} (l : list A) n : slice_to l (Z.of_nat n) = firstn n l.
Proof.
  unfold slice_to, slice_bound. replace (Z.of_nat n <? 0) with false by (symmetry; apply Z.ltb_ge; lia).
  rewrite Nat2Z.id. destruct (Nat.le_gt_cases n (length l)).
  - now rewrite Nat.min_l by lia.
  - rewrite Nat.min_r by lia. rewrite !firstn_all2; auto; lia.
Qed.
Lemma slice_from_nat {A} (l : list A) n : slice_from l (Z.of_nat n) = skipn n l.
Proof.
  unfold slice_from, slice_bound. replace (Z.of_nat n <? 0) with false by (symmetry; apply Z.ltb_ge; lia).
  rewrite Nat2Z.id. destruct (Nat.le_gt_cases n (length l)).
  - now rewrite Nat.min_l by lia.
  - rewrite Nat.min_r by lia. rewrite !skipn_all2; auto; lia.
Qed.
Lemma slice_to_neg {A} (l : list A) n : (0 < n)%nat ->
  slice_to l (-1 * Z.of_nat n) = firstn (length l - n) l.
Proof.
  intros H. unfold slice_to, slice_bound. replace (-1 * Z.of_nat n <? 0) with true by (symmetry; apply Z.ltb_lt; lia).
  f_equal. lia.
Qed.
Lemma slice_from_neg {A} (l : list A) n : (0 < n)%nat ->
  slice_from l (-1 * Z.of_nat n) = skipn (length l - n) l.
Proof.
  intros H. unfold slice_from, slice_bound. replace (-1 * Z.of_nat n <? 0) with true by (symmetry; apply Z.ltb_lt; lia).
  f_equal. lia.
Qed.

(** * tile *)
Lemma tile_length {A} n (l : list A) : length (tile n l) = (n * length l)%nat.
Proof. unfold tile. induction n; simpl; auto. rewrite app_length, IHn; lia. Qed.
Lemma tile_nth {A} (d : A) n l i : (i < n * length l)%nat -> nth i (tile n l) d = nth (i mod length l) l d.
Proof.
  unfold tile. revert i; induction n; simpl; intros i H; [lia|].
  destruct (Nat.lt_ge_cases i (length l)).
  - rewrite app_nth1 by lia. now rewrite Nat.mod_small by lia.
  - rewrite app_nth2 by lia. rewrite IHn by lia.
    replace i with ((i - length l) + 1 * length l)%nat at 2 by lia.
    rewrite Nat.mod_add by lia. reflexivity.
Qed.

(** * concat of equal-length rows *)
Lemma concat_length_const {A} k (m : list (list A)) :
  Forall (fun r => length r = k) m -> length (concat m) = (length m * k)%nat.
Proof. induction 1; simpl; auto. rewrite app_length. lia. Qed.
Lemma concat_nth_const {A} (d : A) k (m : list (list A)) i :
  (0 < k)%nat -> Forall (fun r => length r = k) m ->
  nth i (concat m) d = nth (i mod k) (nth (i / k) m []) d.
Proof.
  intros Hk H. revert i; induction H as [|r m Hr Hm IH]; intros i; simpl.
  - destruct (i / k)%nat; destruct i; destruct (_ mod k)%nat; reflexivity.
  - destruct (Nat.lt_ge_cases i k).
    + rewrite app_nth1 by lia. rewrite Nat.div_small, Nat.mod_small by lia. reflexivity.
    + rewrite app_nth2 by lia. rewrite IH, Hr.
      replace (i mod k)%nat with ((i - k) mod k)%nat by
        (replace i with ((i - k) + 1 * k)%nat at 2 by lia; rewrite Nat.mod_add by lia; auto).
      replace (i / k)%nat with (S ((i - k) / k)) by
        (replace i with ((i - k) + 1 * k)%nat at 2 by lia; rewrite Nat.div_add by lia; lia).
      reflexivity.
Qed.

(** * chunks *)
Lemma chunks_count {A} k (l : list A) : length (chunks k l) = (length l / k)%nat.
Proof. unfold chunks. now rewrite map_length, seq_length. Qed.
Lemma chunks_nth {A} k (l : list A) i d : (i < length l / k)%nat ->
  nth i (chunks k l) d = firstn k (skipn (i * k) l).
Proof. intros H. unfold chunks. rewrite nth_map_seq by auto. reflexivity. Qed.
Lemma div_mul_le (a b i : nat) : (0 < b)%nat -> (i < a / b)%nat -> (i * b + b <= a)%nat.
Proof. intros Hb H. assert (b * (a / b) <= a)%nat by (apply Nat.mul_div_le; lia). nia. Qed.
Lemma chunks_rows {A} k (l : list A) : (0 < k)%nat -> Forall (fun r => length r = k) (chunks k l).
Proof.
  intros Hk. apply Forall_forall. intros r Hr. unfold chunks in Hr. apply in_map_iff in Hr.
  destruct Hr as [i [<- Hi]]. apply in_seq in Hi.
  rewrite firstn_length, skipn_length.
  assert (i * k + k <= length l)%nat by (apply div_mul_le; lia). lia.
Qed.
Lemma chunks_cons {A} k (l : list A) : (0 < k)%nat -> (k <= length l)%nat ->
  chunks k l = firstn k l :: chunks k (skipn k l).
Proof.
  intros Hk Hl. unfold chunks. rewrite skipn_length.
  replace (length l / k)%nat with (S ((length l - k) / k)).
  - cbn [seq map]. f_equal. rewrite <- seq_shift, map_map. apply map_ext. intros i.
    f_equal. rewrite skipn_skipn. f_equal. lia.
  - replace (length l) with ((length l - k) + 1 * k)%nat at 2 by lia. rewrite Nat.div_add by lia. lia.
Qed.
Lemma chunks_concat_full {A} k (l : list A) : (0 < k)%nat -> concat (chunks k l) = firstn (length l / k * k) l.
Proof.
  intros Hk. remember (length l / k)%nat as q eqn:Eq. revert l Eq.
  induction q as [|q IH]; intros l Eq.
  - unfold chunks. rewrite <- Eq. reflexivity.
  - assert (k <= length l)%nat.
    { destruct (Nat.lt_ge_cases (length l) k); auto. rewrite Nat.div_small in Eq by lia. lia. }
    rewrite chunks_cons by lia. simpl concat.
    assert (E2 : q = (length (skipn k l) / k)%nat).
    { rewrite skipn_length. replace (length l) with ((length l - k) + 1 * k)%nat in Eq by lia.
      rewrite Nat.div_add in Eq by lia. lia. }
    rewrite (IH (skipn k l) E2).
    replace (S q * k)%nat with (k + q * k)%nat by lia.
    rewrite <- (firstn_skipn k l) at 3. rewrite firstn_app.
    rewrite firstn_firstn, firstn_length.
    replace (Nat.min (k + q * k) k) with k by lia.
    replace (k + q * k - Nat.min k (length l))%nat with (q * k)%nat by lia. reflexivity.
Qed.
Lemma chunks_of_concat {A} k (m : list (list A)) : (0 < k)%nat ->
  Forall (fun r => length r = k) m -> chunks k (concat m) = m.
Proof.
  intros Hk H. induction H as [|r m Hr Hm IH].
  - unfold chunks. simpl. rewrite Nat.div_0_l by lia. reflexivity.
  - simpl concat. rewrite chunks_cons by (try lia; rewrite app_length; lia).
    rewrite firstn_app, firstn_all2, Hr, Nat.sub_diag by lia. simpl. rewrite app_nil_r.
    rewrite skipn_app, Hr, Nat.sub_diag, skipn_all2 by lia. simpl. now rewrite IH.
Qed.

(** * argmin *)
Lemma argmin_from_spec l : forall best bi i pre,
  (bi < i)%nat -> length pre = i -> nth bi pre 0 = best ->
  (forall k, (k < i)%nat -> best <= nth k pre 0) -> (forall k, (k < bi)%nat -> best < nth k pre 0) ->
  let r := argmin_from best bi i l in
  let full := pre ++ l in
  (r < length full)%nat /\ (forall k, (k < length full)%nat -> nth r full 0 <= nth k full 0) /\
  (forall k, (k < r)%nat -> nth r full 0 < nth k full 0).
Proof.
  induction l as [|x l IH]; intros best bi i pre H1 H2 H3 H4 H5; simpl.
  - rewrite app_nil_r. repeat split; try lia; intros; rewrite H3; [apply H4|apply H5]; lia.
  - destruct (x <? best) eqn:E.
    + apply Z.ltb_lt in E.
      specialize (IH x i (S i) (pre ++ [x])). rewrite <- app_assoc in IH. simpl in IH. apply IH; try lia.
      * rewrite app_length; simpl; lia.
      * rewrite app_nth2 by lia. replace (i - length pre)%nat with 0%nat by lia. reflexivity.
      * intros k Hk. destruct (Nat.eq_dec k i) as [->|].
        -- rewrite app_nth2 by lia. replace (i - length pre)%nat with 0%nat by lia. simpl; lia.
        -- rewrite app_nth1 by lia. specialize (H4 k). lia.
      * intros k Hk. rewrite app_nth1 by lia. specialize (H4 k). lia.
    + apply Z.ltb_ge in E.
      specialize (IH best bi (S i) (pre ++ [x])). rewrite <- app_assoc in IH. simpl in IH. apply IH; try lia.
      * rewrite app_length; simpl; lia.
      * rewrite app_nth1 by lia. auto.
      * intros k Hk. destruct (Nat.eq_dec k i) as [->|].
        -- rewrite app_nth2 by lia. replace (i - length pre)%nat with 0%nat by lia. simpl; lia.
        -- rewrite app_nth1 by lia. apply H4. lia.
      * intros k Hk. rewrite app_nth1 by lia. apply H5; lia.
Qed.
Lemma argmin_spec l r : argmin l = Ok r ->
  (r < length l)%nat /\ (forall k, (k < length l)%nat -> nth r l 0 <= nth k l 0) /\
  (forall k, (k < r)%nat -> nth r l 0 < nth k l 0).
Proof.
  destruct l as [|x l]; simpl; [discriminate|]. intros H. inversion H; subst.
  apply (argmin_from_spec l x 0 1 [x]); simpl; auto; intros; try lia.
  destruct k; simpl; lia.
Qed.
Lemma argmin_ok l : l <> [] -> exists r, argmin l = Ok r.
Proof. destruct l; [congruence|]. intros _. eexists; reflexivity. Qed.
Lemma argmin_unique l r s : argmin l = Ok r -> (s < length l)%nat ->
  (forall k, (k < length l)%nat -> nth s l 0 <= nth k l 0) -> (forall k, (k < s)%nat -> nth s l 0 < nth k l 0) -> r = s.
Proof.
  intros H Hs H1 H2. apply argmin_spec in H. destruct H as (Hr & Hr1 & Hr2).
  destruct (Nat.lt_trichotomy r s) as [L|[E|L]]; auto.
  - specialize (H2 r L). specialize (Hr1 s Hs). lia.
  - specialize (Hr2 s L). specialize (H1 r Hr). lia.
Qed.

(** * bits *)
Definition isbit (x : Z) : Prop := x = 0 \/ x = 1.
Definition bits (l : list Z) : Prop := Forall isbit l.
Lemma isbit_mod x : isbit (x mod 2).
Proof. unfold isbit. lia. Qed.
Lemma bits_app u v : bits (u ++ v) <-> bits u /\ bits v.
Proof. apply Forall_app. Qed.
Lemma bits_nth l i : bits l -> isbit (nth i l 0).
Proof.
  intros H. destruct (Nat.lt_ge_cases i (length l)).
  - apply Forall_nth_lt; auto.
  - rewrite nth_overflow by lia. left; auto.
Qed.
Lemma bits_concat m : Forall bits m -> bits (concat m).
Proof. induction 1; simpl; [constructor|]. apply bits_app; auto. Qed.
