(** LDPC decoder: memory layout and the syndrome check [bad]. *)
From Coq Require Import ZifyBool Permutation.
From Verif Require Import Cpp Model_simd Model_ldpc Spec_ldpc Lib_list Proof_bits Proof_simd Proof_ldpc1 Proof_ldpc2 Proof_ldpc3 Proof_ldpc4 Proof_ldpc5.
Open Scope nat_scope.
Ltac Zify.zify_post_hook ::= idtac.

Definition zprod (l : list Z) : Z := fold_right Z.mul 1%Z l.
Lemma zprod_perm a b : Permutation a b -> zprod a = zprod b.
Proof. induction 1; cbn [zprod fold_right]; unfold zprod in *; try lia. Qed.
Lemma zprod_app a b : zprod (a ++ b) = (zprod a * zprod b)%Z.
Proof. unfold zprod. induction a as [|x a IH]; cbn [fold_right Datatypes.app]; [lia|]. rewrite IH. lia. Qed.
Lemma sign_product_zprod v l : sign_product v l = zprod (map (fun i => Z.sgn (nth i v 0%Z)) l).
Proof. unfold sign_product, zprod. induction l as [|x l IH]; cbn [fold_right map]; [reflexivity|]. rewrite IH. reflexivity. Qed.

Definition trit (x : Z) : Prop := (x = 1 \/ x = 0 \/ x = -1)%Z.
Lemma trit_sgn x : trit (Z.sgn x).
Proof. unfold trit. destruct x; cbn; auto. Qed.
Lemma trit_mul x y : trit x -> trit y -> trit (x * y).
Proof. intros [->|[->| ->]] [->|[->| ->]]; unfold trit; lia. Qed.
Lemma trit_to_s x : trit x -> to_s 8 x = x.
Proof. intros [->|[->| ->]]; reflexivity. Qed.

Section Bad.
Variable T : table.
Variable D : nat.
Hypothesis DOK : decoder_ok T D.
Notation OK := (ok_table T D DOK).
Notation M := (t_M T).
Notation q := (t_q T).
Notation rows := (rows_of T).
Notation cl i := (cls M q i 0 rows).
Notation W := (d_W T D).

Definition vecs (L : nat) (v : list (list Z)) : Prop := length v = L /\ forall x, x < L -> vec D (nth x v []).

Notation msg_view := (Spec_ldpc.msg_view T D).
Notation pty_view := (Spec_ldpc.pty_view T D).

Lemma nth_msg_view msg p : p < t_K T -> nth p (msg_view msg) 0%Z = lane msg (W * (p / M) + (p mod M) mod W) ((p mod M) / W).
Proof. intros H. unfold Spec_ldpc.msg_view, word_of, lane_of. rewrite (nth_map1 _ _ _ 0) by (rewrite seq_length; exact H). rewrite seq_nth by exact H. reflexivity. Qed.
Lemma nth_pty_view pty p : p < t_R T -> nth p (pty_view pty) 0%Z = lane pty (W * (p mod q) + (p / q) mod W) ((p / q) / W).
Proof. intros H. unfold Spec_ldpc.pty_view. rewrite (nth_map1 _ _ _ 0) by (rewrite seq_length; exact H). rewrite seq_nth by exact H. reflexivity. Qed.

Lemma Wn_lt n j : n < D -> j < W -> W * n + j < M.
Proof. intros. rewrite (M_WD T D DOK). nia. Qed.
Lemma msg_view_at msg i j n : i < length rows -> j < W -> n < D ->
  d_msg_at T D i j n < t_K T /\ nth (d_msg_at T D i j n) (msg_view msg) 0%Z = lane msg (W * i + j) n.
Proof.
  intros Hi Hj Hn. pose proof (Wn_lt n j Hn Hj) as Hlt. unfold d_msg_at. rewrite <- Nat.add_assoc.
  assert (M * i + (W * n + j) < t_K T) as HK by (rewrite (ok_K T OK); nia). split; [exact HK|].
  rewrite nth_msg_view by exact HK. destruct (qdm M i (W * n + j) Hlt) as [-> ->].
  destruct (qdm W n j Hj) as [-> ->]. reflexivity.
Qed.
Lemma pty_view_at pty i j n : i < q -> j < W -> n < D ->
  d_pty_at T D i j n < t_R T /\ nth (d_pty_at T D i j n) (pty_view pty) 0%Z = lane pty (W * i + j) n.
Proof.
  intros Hi Hj Hn. pose proof (Wn_lt n j Hn Hj) as Hlt. unfold d_pty_at.
  assert (q * (W * n + j) + i < t_R T) as HK by (rewrite (ok_R T OK); nia). split; [exact HK|].
  rewrite nth_pty_view by exact HK. destruct (qdm q (W * n + j) i Hi) as [-> ->].
  destruct (qdm W n j Hj) as [-> ->]. reflexivity.
Qed.
(** every position is of this form *)
Lemma pty_pos p : p < t_R T -> exists i j n, i < q /\ j < W /\ n < D /\ p = d_pty_at T D i j n.
Proof.
  intros Hp. pose proof (ok_q T OK) as Hq. pose proof (W_pos T D DOK) as HW. pose proof (ok_R T OK) as HR.
  exists (p mod q), ((p / q) mod W), ((p / q) / W).
  split; [apply Nat.mod_upper_bound; lia|]. split; [apply Nat.mod_upper_bound; lia|]. split.
  - apply Nat.div_lt_upper_bound; [lia|]. rewrite <- (M_WD T D DOK). apply Nat.div_lt_upper_bound; [lia|]. lia.
  - unfold d_pty_at. rewrite <- (Nat.div_mod (p / q) W) by lia. apply Nat.div_mod. lia.
Qed.
Lemma msg_pos p : p < t_K T -> exists i j n, i < length rows /\ j < W /\ n < D /\ p = d_msg_at T D i j n.
Proof.
  intros Hp. pose proof (ok_M T OK) as HM. pose proof (W_pos T D DOK) as HW. pose proof (ok_K T OK) as HK.
  exists (p / M), ((p mod M) mod W), ((p mod M) / W).
  split; [apply Nat.div_lt_upper_bound; lia|]. split; [apply Nat.mod_upper_bound; lia|]. split.
  - apply Nat.div_lt_upper_bound; [lia|]. rewrite <- (M_WD T D DOK). apply Nat.mod_upper_bound; lia.
  - unfold d_msg_at. rewrite <- Nat.add_assoc, <- (Nat.div_mod (p mod M) W) by lia. apply Nat.div_mod. lia.
Qed.

(** a rotated message vector holds, in lane [n], the data bit of check [q (W n + j) + i] *)
Lemma lane_moved msg j n v : v < t_K T -> j < W -> n < D ->
  lane msg (fst (locof T D (moved M j v))) ((n + snd (locof T D (moved M j v))) mod D) =
  nth (moved M (W * n + j) v) (msg_view msg) 0%Z.
Proof.
  intros Hv Hj Hn. pose proof (ok_M T OK) as HM. pose proof (W_pos T D DOK) as HW. pose proof (D_pos T D DOK) as HD.
  pose proof (M_WD T D DOK) as EM. pose proof (Wn_lt n j Hn Hj) as Hlt.
  rewrite nth_msg_view.
  2: { rewrite (ok_K T OK). apply moved_bound; [exact HM|]. rewrite <- (ok_K T OK). exact Hv. }
  unfold locof. cbn [fst snd].
  destruct (moved_parts T D DOK j v) as [-> ->]. rewrite sub_mod_eq by lia.
  destruct (moved_parts T D DOK (W * n + j) v) as [P1 P2]. rewrite P1.
  assert (moved M (W * n + j) v / M = v / M) as ->.
  { unfold moved. rewrite sub_mod_eq by lia. apply (qdm M). apply Nat.mod_upper_bound; lia. }
  set (s := (v mod M + j) mod M).
  assert ((v mod M + (W * n + j)) mod M = W * ((n + s / W) mod D) + s mod W) as ->.
  { replace (v mod M + (W * n + j)) with ((v mod M + j) + W * n) by lia.
    rewrite <- Nat.add_mod_idemp_l by lia. fold s. rewrite EM.
    rewrite (Nat.div_mod s W) at 1 by lia.
    replace (W * (s / W) + s mod W + W * n) with (W * (n + s / W) + s mod W) by lia.
    rewrite (Nat.mul_comm W D). apply qM_mod; [apply Nat.mod_upper_bound; lia|exact HD]. }
  assert (s mod W < W) as HsW by (apply Nat.mod_upper_bound; lia).
  destruct (qdm W ((n + s / W) mod D) (s mod W) HsW) as [-> ->].
  replace (M * (v / M) / D) with (W * (v / M)); [reflexivity|].
  rewrite EM at 2. replace (W * D * (v / M)) with (W * (v / M) * D) by lia. symmetry. apply Nat.div_mul. lia.
Qed.

Variable C : ldpc_const.
Hypothesis HC : counts T (lc_cnc C).
Hypothesis HS : segs T D (fun _ _ => True) (lc_loc C).

(** what link [k] of layer [(i, j)] carries in lane [n] *)
Definition fetched (msg pty : list (list Z)) (i j k n : nat) : Z :=
  if k <? length (cl i) then
    let l := nth (base T D i j + k) (lc_loc C) (0, 0) in lane msg (fst l) ((n + snd l) mod D)
  else if k =? length (cl i) then nth (d_pty_at T D i j n) (pty_view pty) 0%Z
  else if d_pty_at T D i j n =? 0 then 127%Z else nth (d_pty_at T D i j n - 1) (pty_view pty) 0%Z.

Lemma fetch_ok msg pty i j k : vecs (d_MSG T D) msg -> vecs (d_PTY T D) pty -> i < q -> j < W -> k < length (cl i) + 2 ->
  exists v, ldpc_fetch T D C msg pty (length (cl i)) (base T D i j) i j k = Ok v /\ vec D v /\
    forall n, n < D -> nth n v 0%Z = fetched msg pty i j k n.
Proof.
  intros (Lm & Vm) (Lp & Vp) Hi Hj Hk. pose proof (D_pos T D DOK) as HD. pose proof (ok_D T D DOK) as HD2.
  pose proof (PTY_eq T D DOK) as EP. pose proof (W_pos T D DOK) as HW.
  unfold ldpc_fetch, fetched. destruct (Nat.ltb_spec k (length (cl i))) as [Hlt|Hge].
  - destruct (loc_bound T D DOK _ i j k HS Hi Hj Hlt) as (B0 & B1 & B2).
    rewrite (rd_nth _ _ (0, 0)) by exact B0. cbn [bind]. rewrite (rd_nth _ _ []) by lia. cbn [bind].
    set (l := nth (base T D i j + k) (lc_loc C) (0, 0)) in *.
    destruct (rotate_vec D (nth (fst l) msg []) (- Z.of_nat (snd l)) (Vm _ B1) HD ltac:(lia)) as (v & E & V & Hn).
    exists v. split; [exact E|]. split; [exact V|]. intros n Hnn. rewrite Hn by exact Hnn. rewrite rot_neg by lia. reflexivity.
  - assert (W * i + j < W * q) as Hij by nia.
    destruct (Nat.eqb_spec k (length (cl i))) as [->|Hne].
    + rewrite (rd_nth _ _ []) by lia. eexists. split; [reflexivity|]. split; [apply Vp; lia|]. intros n Hn.
      rewrite (proj2 (pty_view_at pty i j n Hi Hj Hn)). reflexivity.
    + destruct (Nat.eqb_spec i 0) as [->|Hi0]; cbn [negb].
      * destruct (Nat.eqb_spec j 0) as [->|Hj0]; cbn [negb].
        -- rewrite (rdZ_nth _ _ []) by lia. cbn [bind].
           replace (Z.to_nat (Z.of_nat (d_PTY T D) - 1)) with (d_PTY T D - 1) by lia.
           destruct (rotate_vec D (nth (d_PTY T D - 1) pty []) 1 (Vp (d_PTY T D - 1) ltac:(lia)) HD ltac:(lia)) as (v & E & V & Hn).
           rewrite E. cbn [bind]. pose proof V as (Lv & _). rewrite wr_Ok by lia. eexists. split; [reflexivity|].
           split; [apply vec_upd; [exact V|unfold i8; lia]|]. intros n Hnn.
           destruct n as [|n].
           ++ rewrite nth_upd_eq by lia. unfold d_pty_at. rewrite Nat.mul_0_r, !Nat.add_0_r, Nat.mul_0_r. reflexivity.
           ++ rewrite nth_upd_neq by lia. rewrite Hn by exact Hnn. rewrite rot_one by lia.
              assert (d_pty_at T D 0 0 (S n) - 1 = d_pty_at T D (q - 1) (W - 1) n /\ d_pty_at T D 0 0 (S n) <> 0) as [Q1 Q2].
              { unfold d_pty_at. split; [|nia]. replace (W * S n + 0) with (S (W * n + (W - 1))) by lia. nia. }
              destruct (Nat.eqb_spec (d_pty_at T D 0 0 (S n)) 0) as [E0|_]; [lia|]. rewrite Q1.
              rewrite (proj2 (pty_view_at pty (q - 1) (W - 1) n ltac:(lia) ltac:(lia) ltac:(lia))).
              unfold lane. f_equal; [lia|]. f_equal. rewrite EP. nia.
        -- rewrite (rd_nth _ _ []) by nia. eexists. split; [reflexivity|]. split; [apply Vp; nia|]. intros n Hn.
           assert (d_pty_at T D 0 j n - 1 = d_pty_at T D (q - 1) (j - 1) n /\ d_pty_at T D 0 j n <> 0) as [Q1 Q2].
           { unfold d_pty_at. split; [|nia]. replace (W * n + j) with (S (W * n + (j - 1))) by lia. nia. }
           destruct (Nat.eqb_spec (d_pty_at T D 0 j n) 0) as [E0|_]; [lia|]. rewrite Q1.
           rewrite (proj2 (pty_view_at pty (q - 1) (j - 1) n ltac:(lia) ltac:(lia) ltac:(lia))).
           unfold lane. do 2 f_equal. nia.
      * rewrite (rd_nth _ _ []) by nia. eexists. split; [reflexivity|]. split; [apply Vp; nia|]. intros n Hn.
        assert (d_pty_at T D i j n - 1 = d_pty_at T D (i - 1) j n /\ d_pty_at T D i j n <> 0) as [Q1 Q2].
        { unfold d_pty_at. split; lia. }
        destruct (Nat.eqb_spec (d_pty_at T D i j n) 0) as [E0|_]; [lia|]. rewrite Q1.
        rewrite (proj2 (pty_view_at pty (i - 1) j n ltac:(lia) ltac:(lia) ltac:(lia))). reflexivity.
Qed.

(** the product of the signs over all links of a check *)
Definition check_prod (data parity : list Z) (p : nat) : Z :=
  (sign_product data (links M q (t_R T) rows p) * Z.sgn (nth p parity 0%Z)
   * (if Nat.eqb p 0 then 1 else Z.sgn (nth (p - 1) parity 0%Z)))%Z.
Lemma check_prod_trit data parity p : trit (check_prod data parity p).
Proof.
  unfold check_prod. apply trit_mul; [apply trit_mul|].
  - rewrite sign_product_zprod. induction (links _ _ _ _ _) as [|x l IH]; cbn [map zprod fold_right]; [left; reflexivity|].
    apply trit_mul; [apply trit_sgn|exact IH].
  - apply trit_sgn.
  - destruct (p =? 0); [left; reflexivity|apply trit_sgn].
Qed.

Lemma fetched_prod msg pty i j n : i < q -> j < W -> n < D ->
  zprod (map (fun k => Z.sgn (fetched msg pty i j k n)) (seq 0 (length (cl i) + 2))) =
  check_prod (msg_view msg) (pty_view pty) (d_pty_at T D i j n).
Proof.
  intros Hi Hj Hn. rewrite seq_app, map_app, zprod_app. cbn [Nat.add seq map]. unfold check_prod.
  rewrite <- Z.mul_assoc. f_equal.
  - rewrite sign_product_zprod. unfold d_pty_at. rewrite (links_at T OK) by (try apply Wn_lt; assumption).
    rewrite map_map.
    assert (map (fun k => Z.sgn (fetched msg pty i j k n)) (seq 0 (length (cl i))) =
            map (fun l => Z.sgn (lane msg (fst l) ((n + snd l) mod D))) (seg T D (lc_loc C) i j)) as ->.
    { pose proof (base_LOC T D DOK i j Hi Hj) as HbL. destruct HS as (LL & _).
      apply (list_ext _ _ 0%Z).
      - rewrite !map_length, seq_length. unfold seg. rewrite firstn_length, skipn_length. lia.
      - intros k Hk. rewrite map_length, seq_length in Hk. rewrite (nth_map1 _ _ _ 0) by (rewrite seq_length; lia).
        rewrite seq_nth by lia. cbn [Nat.add].
        rewrite (nth_map1 _ _ _ (0, 0)) by (unfold seg; rewrite firstn_length, skipn_length; lia).
        unfold fetched. replace (k <? length (cl i)) with true by lia. unfold seg. rewrite nth_firstn'.
        replace (k <? length (cl i)) with true by lia. rewrite nth_skipn'. reflexivity. }
    rewrite (zprod_perm _ _ (Permutation_map _ (proj2 HS i j Hi Hj I))). rewrite map_map. f_equal.
    apply map_ext_in. intros v Hv. rewrite lane_moved; auto. apply (cl_bound T OK i). exact Hv.
  - unfold fetched. cbn [zprod fold_right].
    replace (length (cl i) <? length (cl i)) with false by lia. rewrite Nat.eqb_refl.
    replace (S (length (cl i)) <? length (cl i)) with false by lia.
    replace (S (length (cl i)) =? length (cl i)) with false by lia.
    destruct (d_pty_at T D i j n =? 0); [reflexivity|]. lia.
Qed.

Lemma cnv_ok msg pty i j : vecs (d_MSG T D) msg -> vecs (d_PTY T D) pty -> i < q -> j < W ->
  exists cnv, for_up 0 (length (cl i) + 2) (fun k cnv =>
      tmp <- ldpc_fetch T D C msg pty (length (cl i)) (base T D i j) i j k ;; Ok (vsign 8 cnv tmp)) (vdup D 1%Z) = Ok cnv /\
    length cnv = D /\
    forall n, n < D -> nth n cnv 0%Z = check_prod (msg_view msg) (pty_view pty) (d_pty_at T D i j n).
Proof.
  intros Vm Vp Hi Hj.
  edestruct (for_up_inv (fun k cnv => length cnv = D /\ forall n, n < D ->
     trit (nth n cnv 0%Z) /\ nth n cnv 0%Z = zprod (map (fun k => Z.sgn (fetched msg pty i j k n)) (seq 0 k))))
    as (cnv & E & L & H).
  4: { exists cnv. split; [exact E|]. split; [exact L|]. intros n Hn. rewrite <- fetched_prod by assumption. apply H. exact Hn. }
  - lia.
  - cbv beta. intros k cnv Hk (L & H). destruct (fetch_ok msg pty i j k Vm Vp Hi Hj) as (v & E & (Lv & Fv) & Hv); [lia|].
    rewrite E. cbn [bind]. eexists. split; [reflexivity|]. unfold vsign. rewrite length_map2. split; [lia|].
    intros n Hn. destruct (H n Hn) as (H1 & H2). rewrite (nth_map2 _ _ _ _ 0%Z 0%Z) by lia. rewrite sgn_b2z, Hv by exact Hn.
    rewrite trit_to_s by (apply trit_mul; [apply trit_sgn|exact H1]). split; [apply trit_mul; [apply trit_sgn|exact H1]|].
    rewrite seq_S, map_app, zprod_app. cbn [map zprod fold_right Nat.add]. rewrite H2. unfold zprod. lia.
  - split; [apply repeat_length|]. intros n Hn. unfold vdup. rewrite nth_indep with (d' := 1%Z) by (rewrite repeat_length; lia).
    rewrite nth_repeat. split; [left; reflexivity|reflexivity].
Qed.

Lemma lor_eq_0 x y : (0 <= x < 256 -> 0 <= y < 256 -> to_u 8 (Z.lor x y) = 0 <-> x = 0 /\ y = 0)%Z.
Proof.
  intros Hx Hy. rewrite <- (Z.lor_eq_0_iff x y). rewrite to_u8_id; [reflexivity|].
  split; [apply Z.lor_nonneg; lia|]. destruct (Z.eq_dec (Z.lor x y) 0) as [->|Hne]; [lia|].
  assert (0 <= Z.lor x y)%Z by (apply Z.lor_nonneg; lia).
  change 256%Z with (2 ^ 8)%Z. apply Z.log2_lt_pow2; [lia|]. rewrite Z.log2_lor by lia.
  assert (forall z, 0 <= z < 256 -> Z.log2 z < 8)%Z as Hl.
  { intros z Hz. destruct (Z.eq_dec z 0) as [->|]; [reflexivity|]. apply Z.log2_lt_pow2; [lia|]. exact (proj2 Hz). }
  pose proof (Hl x Hx). pose proof (Hl y Hy). lia.
Qed.

Definition layers_ok (msg pty : list (list Z)) (i : nat) : Prop :=
  forall i' j n, i' < i -> j < W -> n < D -> check_prod (msg_view msg) (pty_view pty) (d_pty_at T D i' j n) = 1%Z.

Theorem bad_ok msg pty : vecs (d_MSG T D) msg -> vecs (d_PTY T D) pty ->
  exists b, ldpc_bad T D C msg pty = Ok b /\ (b = false <-> satisfies T (msg_view msg) (pty_view pty)).
Proof.
  intros Vm Vp. destruct HC as (Lc & Hc). unfold ldpc_bad.
  edestruct (for_ret_inv (fun i lo => lo = base T D i 0 /\ layers_ok msg pty i)
     (fun b => b = true /\ ~ satisfies T (msg_view msg) (pty_view pty))) as (x & E & Hx).
  4: { rewrite E. cbn [bind]. destruct x as [lo|b]; (eexists; split; [reflexivity|]).
       - split; [|reflexivity]. intros _ p Hp. destruct (pty_pos p Hp) as (i & j & n & Hi & Hj & Hn & ->).
         apply (proj2 Hx); assumption.
       - destruct Hx as (-> & Hns). split; [discriminate|]. intros H. contradiction. }
  - lia.
  - cbv beta. intros i lo Hi (-> & Hok). rewrite (rd_nth _ _ 0) by lia. cbn [bind]. rewrite Hc by lia.
    edestruct (for_up_inv (fun j (s : list Z * nat) => let '(r, lo) := s in lo = base T D i j /\ length r = D /\
       forall n, n < D -> (0 <= nth n r 0 < 256)%Z /\ (nth n r 0%Z = 0%Z <->
         forall j', j' < j -> check_prod (msg_view msg) (pty_view pty) (d_pty_at T D i j' n) = 1%Z)))
      as ([r lo] & E & -> & Lr & Hr).
    4: { rewrite E. cbn [bind].
         edestruct (for_ret_inv (fun n (_ : unit) => forall n', n' < n -> nth n' r 0%Z = 0%Z)
           (fun b => b = true /\ exists n, n < D /\ nth n r 0%Z <> 0%Z)) as (y & Ey & Hy).
         4: { rewrite Ey. cbn [bind]. destruct y as [[]|b]; (eexists; split; [reflexivity|]).
              - rewrite base_wrap. split; [reflexivity|]. intros i' j n Hi' Hj Hn.
                destruct (Nat.eq_dec i' i) as [->|Hne]; [|apply Hok; auto; lia].
                apply (proj2 (Hr n Hn)); [apply Hy; exact Hn|exact Hj].
              - destruct Hy as (-> & n & Hn & Hz). split; [reflexivity|]. intros Hsat. apply Hz. apply (proj2 (Hr n Hn)).
                intros j Hj. apply Hsat. apply pty_view_at; auto; lia. }
         - lia.
         - cbv beta. intros n [] Hn Hall. rewrite (rd_nth _ _ 0%Z) by lia. cbn [bind].
           destruct (Z.eqb_spec (nth n r 0%Z) 0); (eexists; split; [reflexivity|]).
           + intros n' Hn'. destruct (Nat.eq_dec n' n) as [->|]; [assumption|apply Hall; lia].
           + split; [reflexivity|]. exists n. split; [lia|assumption].
         - intros n' Hn'. lia. }
    + lia.
    + cbv beta. intros j [r lo] Hj (-> & Lr & Hr).
      destruct (cnv_ok msg pty i j Vm Vp) as (cnv & Ec & Lcnv & Hcnv); [lia|lia|].
      rewrite Ec. cbn [bind]. eexists. split; [reflexivity|]. cbv beta iota. split; [apply base_next|].
      unfold vorr, vclez. rewrite length_map2, map_length. split; [lia|]. intros n Hn.
      rewrite (nth_map2 _ _ _ _ 0%Z 0%Z) by (rewrite ?map_length; lia). rewrite (nth_map1 _ cnv _ 0%Z) by lia.
      rewrite Hcnv by exact Hn. split; [apply to_u8_range|]. rewrite lor_eq_0 by (try apply to_u8_range; apply Hr; exact Hn).
      destruct (Hr n Hn) as (_ & Hz). rewrite Hz.
      assert (to_u 8 (- b2z (check_prod (msg_view msg) (pty_view pty) (d_pty_at T D i j n) <=? 0)%Z) = 0%Z <->
              check_prod (msg_view msg) (pty_view pty) (d_pty_at T D i j n) = 1%Z) as ->.
      { destruct (check_prod_trit (msg_view msg) (pty_view pty) (d_pty_at T D i j n)) as [->|[->| ->]];
        cbv; split; congruence. }
      split.
      * intros (H1 & H2) j' Hj'. destruct (Nat.eq_dec j' j) as [->|]; [exact H2|apply H1; lia].
      * intros H. split; [intros; apply H; lia|apply H; lia].
    + cbv beta iota. split; [reflexivity|]. unfold vmask, vzero. rewrite map_length, repeat_length. split; [reflexivity|].
      intros n Hn. rewrite (nth_map1 _ _ _ 0%Z) by (rewrite repeat_length; exact Hn). rewrite nth_repeat. cbv [to_u].
      change (0 mod 2 ^ 8)%Z with 0%Z. split; [lia|]. split; [intros _ j Hj; lia|reflexivity].
  - split; [unfold base, csum; cbn [nsum]; lia|]. intros i' j n H. lia.
Qed.
End Bad.
