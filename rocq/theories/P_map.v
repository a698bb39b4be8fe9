(** Proofs about mapping / demapping. *)
From Verif Require Import Py B_list M_aux M_symbol.
From Coq Require Import QArith Qround Qabs Lqa.
Open Scope Z_scope.
Ltac Zify.zify_post_hook ::= Z.div_mod_to_equations.

Lemma np_take_ok {A} (l : list A) (d : A) idx :
  Forall (fun i => - Z.of_nat (length l) <= i < Z.of_nat (length l)) idx ->
  np_take l idx = Ok (map (fun i => nth (Z.to_nat (i mod Z.of_nat (length l))) l d) idx).
Proof.
  intros H. unfold np_take. apply map_res_ok. intros i Hi. rewrite Forall_forall in H. specialize (H i Hi).
  destruct (Z.lt_ge_cases i 0).
  - rewrite (np_get_neg _ _ d) by lia. do 2 f_equal. f_equal. apply Z.mod_unique with (-1); lia.
  - rewrite (np_get_Z _ _ d) by lia. do 2 f_equal. f_equal. symmetry. apply Z.mod_small. lia.
Qed.
Lemma np_get_out {A} (l : list A) i : ~ (- Z.of_nat (length l) <= i < Z.of_nat (length l)) -> np_get l i = Raise IndexError.
Proof. intros H. destruct (Z.lt_ge_cases i 0); [apply np_get_low; lia|apply np_get_high; lia]. Qed.
Lemma np_take_out {A} (l : list A) idx :
  Exists (fun i => ~ (- Z.of_nat (length l) <= i < Z.of_nat (length l))) idx -> np_take l idx = Raise IndexError.
Proof.
  unfold np_take. induction 1 as [i idx H|i idx H IH].
  - cbn [map_res]. now rewrite np_get_out.
  - cbn [map_res]. rewrite IH.
    destruct (np_get l i) eqn:E; auto. cbn [bind].
    unfold np_get in E. destruct (np_index (length l) i); [destruct (nth_error l n)|]; congruence.
Qed.

Lemma mapping_ok {A} (neg : A -> A) (d : A) (lv : list A) pn (x : nda Z) :
  Forall (fun i => - Z.of_nat (length lv) <= i < Z.of_nat (length lv)) (data x) ->
  mapping neg lv None pn x =
  Ok (mk_nda (shape x) (map (fun i => let v := nth (Z.to_nat (i mod Z.of_nat (length lv))) lv d in if pn then neg v else v) (data x))).
Proof.
  intros H. unfold mapping. cbn [bind]. destruct pn.
  - rewrite (np_take_ok _ (neg d)) by (now rewrite map_length). cbn [bind]. do 2 f_equal. apply map_ext. intros i. rewrite map_length, map_nth. reflexivity.
  - rewrite (np_take_ok _ d) by auto. reflexivity.
Qed.
Lemma mapping_custom {A} (neg : A -> A) (lv cl : list A) pn (x : nda Z) :
  mapping neg lv (Some cl) pn x = if (length cl =? length lv)%nat then mapping neg cl None pn x else Raise ValueError.
Proof. unfold mapping. destruct (length cl =? length lv)%nat; reflexivity. Qed.
Lemma mapping_out {A} (neg : A -> A) (lv : list A) pn (x : nda Z) :
  Exists (fun i => ~ (- Z.of_nat (length lv) <= i < Z.of_nat (length lv))) (data x) ->
  mapping neg lv None pn x = Raise IndexError.
Proof.
  intros H. unfold mapping. cbn [bind]. destruct pn; rewrite np_take_out; auto. now rewrite map_length.
Qed.

(** rounding *)
Lemma round_near q n : ((inject_Z n - (1 # 2)) < q)%Q -> (q < (inject_Z n + (1 # 2)))%Q -> round_half_even q = n.
Proof.
  destruct q as [a d]. unfold inject_Z, Qlt, Qminus, Qplus, Qopp. cbn [Qnum Qden].
  rewrite ?Pos.mul_1_l, ?Pos2Z.inj_mul. intros H1 H2. unfold round_half_even, Qfloor. cbn [Qnum Qden].
  assert (E := Z.div_mod a (Zpos d) ltac:(lia)). assert (M := Z.mod_pos_bound a (Zpos d) ltac:(lia)).
  set (f := a / Zpos d) in *. set (r := a mod Zpos d) in *.
  replace (2 * (a - f * Zpos d)) with (2 * r) by lia.
  destruct (2 * r ?= Zpos d) eqn:C.
  - apply Z.compare_eq in C. exfalso. 
    assert (2 * a = (2 * f + 1) * Zpos d) by nia. 
    assert (2 * n - 1 < 2 * f + 1) by nia. assert (2 * f + 1 < 2 * n + 1) by nia. lia.
  - rewrite Z.compare_lt_iff in C. assert (2 * n - 1 < 2 * f + 1) by nia. assert (2 * f < 2 * n + 1) by nia. lia.
  - rewrite Z.compare_gt_iff in C. assert (2 * n - 1 < 2 * f + 2) by nia. assert (2 * f + 1 < 2 * n + 1) by nia. lia.
Qed.

Definition lstep (c : constellation) : Z := match c with NRZ => 2 | OOK => 1 | PAM3 => 1 | PAM4 => 2 end.
Lemma demap_idx_near c x (i : nat) : (i < length (get_levels c))%nat ->
  (Qabs (x - inject_Z (nth i (get_levels c) 0%Z)) < inject_Z (lstep c) / 2)%Q -> demap_idx (get_levels c) x = Z.of_nat i.
Proof.
  intros Hi H. apply Qabs_Qlt_condition in H. destruct H as [H1 H2].
  unfold demap_idx. apply round_near; destruct c; simpl in Hi, H1, H2 |- *;
    (destruct i as [|[|[|[|i]]]]; [..|exfalso; lia]; try (exfalso; lia));
    unfold inject_Z in *; simpl nth in *; cbn in H1, H2 |- *; unfold Qdiv in *; cbn [Qinv Qnum Qden] in *; lra.
Qed.

Lemma map_res_Forall2 {A B C} (f : A -> res C) (g : B -> C) l m :
  Forall2 (fun a b => f a = Ok (g b)) l m -> map_res f l = Ok (map g m).
Proof. induction 1; cbn [map_res map]; auto. rewrite H, IHForall2. reflexivity. Qed.

Lemma demapping_with_ok {A} (neg : A -> A) to_idx nlev (pn : bool) (sig : nda A) (syms : list nat) :
  length (data sig) = size (shape sig) ->
  Forall2 (fun (x : A) (i : nat) => (i < nlev)%nat /\ to_idx (if pn then neg x else x) = Z.of_nat i) (data sig) syms ->
  fst (demapping_with neg to_idx nlev pn sig) = Ok (mk_nda (shape sig) (map Z.of_nat syms)).
Proof.
  intros Hsz H. unfold demapping_with. cbn [fst].
  assert (Hd : map to_idx (data (if pn then mk_nda (shape sig) (map neg (data sig)) else sig)) = map Z.of_nat syms).
  { clear Hsz. destruct sig as [sh d]. cbn [data shape] in *.
    replace (data (if pn then mk_nda sh (map neg d) else mk_nda sh d)) with (map (fun x => (if pn then neg x else x)) d).
    2:{ destruct pn; cbn [data]; auto. now rewrite map_id. }
    rewrite map_map. induction H as [|x i l m [Hi Hx] _ IH]; auto. cbn [map]. rewrite IH. f_equal. auto. }
  rewrite Hd.
  assert (Ht : np_take (map Z.of_nat (seq 0 nlev)) (map Z.of_nat syms) = Ok (map Z.of_nat syms)).
  { unfold np_take. rewrite (map_res_ok _ (fun z => z)); [now rewrite map_id|]. intros z Hz.
    apply in_map_iff in Hz. destruct Hz as [i [<- Hi]].
    assert (Hl : (i < nlev)%nat).
    { clear - H Hi. induction H; destruct Hi; subst; tauto. }
    rewrite (np_get_nth _ _ 0) by (rewrite map_length, seq_length; auto). rewrite nth_map_seq by auto. reflexivity. }
  rewrite Ht. cbn [bind].
  assert (Hs : shape (if pn then mk_nda (shape sig) (map neg (data sig)) else sig) = shape sig) by (destruct pn; auto).
  rewrite Hs. unfold reshape.
  assert (Hl : length (map Z.of_nat syms) = size (shape sig)).
  { rewrite map_length, <- Hsz. symmetry. clear - H. induction H; simpl; auto. }
  rewrite Hl, Nat.eqb_refl. reflexivity.
Qed.
Lemma demapping_near c (pn : bool) (sig : nda Q) (syms : list nat) : length (data sig) = size (shape sig) ->
  Forall2 (fun (x : Q) (i : nat) => (i < length (get_levels c))%nat /\
     (Qabs ((if pn then - x else x) - inject_Z (nth i (get_levels c) 0%Z)) < inject_Z (lstep c) / 2)%Q) (data sig) syms ->
  fst (demapping c pn sig) = Ok (mk_nda (shape sig) (map Z.of_nat syms)).
Proof.
  intros Hsz H. apply demapping_with_ok; auto. clear Hsz. induction H as [|x i l m [Hi Hx] _ IH]; constructor; auto.
  split; auto. now apply demap_idx_near.
Qed.
Lemma demapping_after c (pn : bool) (sig : nda Q) :
  snd (demapping c pn sig) = if pn then mk_nda (shape sig) (map Qopp (data sig)) else sig.
Proof. reflexivity. Qed.

Definition toQ (a : nda Z) : nda Q := mk_nda (shape a) (map inject_Z (data a)).
Lemma map_demap_with {A} (neg : A -> A) (d : A) (lv : list A) (to_idx : A -> Z) pn (x : nda Z) :
  (forall v, neg (neg v) = v) -> (forall i, (i < length lv)%nat -> to_idx (nth i lv d) = Z.of_nat i) ->
  length (data x) = size (shape x) -> Forall (fun i => 0 <= i < Z.of_nat (length lv)) (data x) ->
  exists y, mapping neg lv None pn x = Ok y /\ shape y = shape x /\
    fst (demapping_with neg to_idx (length lv) pn y) = Ok x.
Proof.
  intros Hneg Hidx Hs Hx. rewrite (mapping_ok neg d).
  2:{ revert Hx. apply Forall_impl. lia. }
  eexists. split; [reflexivity|]. split; [reflexivity|].
  rewrite (demapping_with_ok neg to_idx _ pn _ (map Z.to_nat (data x))).
  - cbn [shape]. destruct x as [sh dd]. cbn [shape data] in *. do 2 f_equal. rewrite map_map.
    rewrite <- (map_id dd) at 2. apply map_ext_in. intros i Hi. rewrite Forall_forall in Hx. specialize (Hx i Hi). lia.
  - cbn [data shape]. now rewrite !map_length.
  - cbn [data shape]. clear Hs. induction Hx as [|i l Hi _ IH]; cbn [map]; constructor; auto.
    split; [lia|]. rewrite Z.mod_small by lia. destruct pn; [rewrite Hneg|]; apply Hidx; lia.
Qed.
Lemma map_demap c pn (x : nda Z) : length (data x) = size (shape x) ->
  Forall (fun i => 0 <= i < Z.of_nat (length (get_levels c))) (data x) ->
  exists y, mapping Z.opp (get_levels c) None pn x = Ok y /\ shape y = shape x /\ fst (demapping c pn (toQ y)) = Ok x.
Proof.
  intros Hs Hx. rewrite (mapping_ok Z.opp 0).
  2:{ revert Hx. apply Forall_impl. lia. }
  eexists. split; [reflexivity|]. split; [reflexivity|].
  rewrite (demapping_near c pn _ (map Z.to_nat (data x))).
  - cbn [shape]. destruct x as [sh d]. cbn [shape data toQ] in *. do 2 f_equal. rewrite map_map.
    rewrite <- (map_id d) at 2. apply map_ext_in. intros i Hi. rewrite Forall_forall in Hx. specialize (Hx i Hi). lia.
  - cbn [toQ data shape]. now rewrite !map_length.
  - cbn [toQ data shape]. rewrite map_map. clear Hs. induction Hx as [|i l Hi _ IH]; cbn [map]; constructor; auto.
    split; [lia|]. set (lv := get_levels c) in *. rewrite Z.mod_small by lia. set (v := nth _ lv 0).
    apply Qabs_Qlt_condition. assert (Hst : (0 < inject_Z (lstep c) / 2)%Q) by (destruct c; reflexivity).
    assert (E : ((if pn then - inject_Z (if pn then - v else v) else inject_Z (if pn then - v else v)) - inject_Z v == 0)%Q).
    { destruct pn; [rewrite inject_Z_opp|]; ring. }
    rewrite E. split; lra.
Qed.
