(** Polar list decoders: single positions, ranks, the final order of the decisions, and the whole function. *)
From Coq Require Import ZifyBool ZifyNat ZifyN.
From Verif Require Import Cpp Model_simd Model_sort Model_polar Model_polar_list Spec_polar Spec_polar_list Lib_list Lib_wht
  Proof_bits Proof_simd Proof_polar1 Proof_polar2 Proof_polar3 Proof_polar4 Proof_polar5 Proof_polar7 Proof_plist1 Proof_plist2 Proof_plist3.
Local Open Scope nat_scope.
Ltac Zify.zify_post_hook ::= idtac.

Definition plain_next (c : nat) : role * nat := (Data, c).
Definition parity_next (stride c : nat) : role * nat := match c with O => (Parity, stride) | S c => (Data, c) end.
Lemma plain_next_ok c : fst (plain_next c) <> Frozen.
Proof. discriminate. Qed.
Lemma parity_next_ok stride c : fst (parity_next stride c) <> Frozen.
Proof. destruct c; discriminate. Qed.
Lemma upd_put {X} (d : X) (l : list X) i x : i < length l -> upd l i x = put i [x] l.
Proof.
  intros Hi. apply (list_ext _ _ d); [rewrite length_upd, length_put; cbn [length]; lia|]. intros j Hj.
  rewrite nth_upd, nth_put by (cbn [length]; lia). cbn [length]. destruct (Nat.eqb_spec i j) as [->|Hne].
  - replace (j <? length l) with true by lia. replace ((j <=? j) && (j <? j + 1)) with true by lia. rewrite Nat.sub_diag. reflexivity.
  - replace ((i <=? j) && (j <? i + 1)) with false by lia. reflexivity.
Qed.
Lemma seg1 {X} (d : X) (l : list X) i : i < length l -> seg i 1 l = [nth i l d].
Proof.
  intros H. apply (list_ext _ _ d); [rewrite length_seg; cbn [length]; lia|]. intros j Hj. rewrite length_seg in Hj by lia. rewrite nth_seg by lia.
  assert (j = 0) as -> by lia. cbn [nth]. f_equal. lia.
Qed.

Section Rates.
Variable W : nat.
Hypothesis HW : 1 <= W <= 256.
Variable P : polar_ops (list Z).
Hypothesis HP : vops_ok W P.
Variables msg0 maps0 : list (list Z).

Lemma list_rate1_good hoff : lgood W plain_next msg0 maps0 false 0 hoff [false] (list_rate1 W hoff) (leaf W P plain_next).
Proof.
  intros B s a HB HB2 (A1 & A2 & A3 & A4) (R1 & R2 & R3 & R4 & R5) Hs Hh Fs Hm Hm2. change (2 ^ 0) with 1 in *. rewrite (seg1 []) in * by lia.
  inversion Fs as [|? ? Hv _]; subst. unfold leaf, list_rate1. cbn [hd plain_next]. set (v := nth 1 (ls_soft s) []) in *.
  rewrite (rd_nth _ _ []) by lia. cbn [bind]. fold v. rewrite R1, (fork_ok W HW _ _ B) by (assumption || lia). cbn [bind].
  rewrite select_ok by (try apply length_pairs; try apply A1; assumption). cbn [bind]. set (fork := ffork W (a_metric a) v).
  rewrite R2, R3, R4. cbn [groles plain_next fst] in Hm, Hm2. change (payload [Data]) with 1 in *. rewrite !wr_snoc by (rewrite ?rev_length, ?map_length; lia). cbn [bind].
  rewrite wr_Ok by lia. cbn [bind]. eexists. split; [reflexivity|]. split; [|split; [|split]].
  - split; [reflexivity|]. cbn [ls_msg ls_maps ls_count a_hist map rev fst snd length]. split; [reflexivity|]. split; [reflexivity|]. split; [lia|discriminate].
  - cbn [ls_hard]. apply (upd_put []). lia.
  - reflexivity.
  - reflexivity.
Qed.
Lemma parity_rate1_good stride hoff : lgood W (parity_next stride) msg0 maps0 true 0 hoff [false] (parity_rate1 W P stride hoff) (leaf W P (parity_next stride)).
Proof.
  intros B s a HB HB2 (A1 & A2 & A3 & A4) (R1 & R2 & R3 & R4 & R5) Hs Hh Fs Hm Hm2. change (2 ^ 0) with 1 in *. rewrite (seg1 []) in * by lia.
  inversion Fs as [|? ? Hv _]; subst. destruct (R5 eq_refl) as (R6 & R7). unfold leaf, parity_rate1. cbn [hd]. set (v := nth 1 (ls_soft s) []) in *.
  rewrite (rd_nth _ _ []) by lia. cbn [bind]. fold v. rewrite R1, (fork_ok W HW _ _ B) by (assumption || lia). cbn [bind]. rewrite R6, R7.
  destruct (a_left a) as [|c] eqn:El; cbn [parity_next fst Nat.eqb negb] in *.
  - rewrite kill_ok by (try apply length_pairs; try apply A2; exact HW). cbn [bind]. rewrite select_ok by (try apply length_pairs; try apply A1; assumption). cbn [bind].
    set (fork := fkill W _ _). specialize (A4 eq_refl). destruct (a_hist a) as [|[m p] h] eqn:Eh; [congruence|]. cbn [map rev fst snd length] in *.
    rewrite R2, R3, R4. set (t1 := skipn (S (length h)) msg0). set (t2 := skipn (S (length h)) maps0).
    assert (Z.of_nat (S (length h)) - 1 = Z.of_nat (length (rev (map fst h))))%Z as Q1 by (rewrite rev_length, map_length; lia).
    assert (Z.of_nat (S (length h)) - 1 = Z.of_nat (length (rev (map snd h))))%Z as Q2 by (rewrite rev_length, map_length; lia).
    assert (forall l (x : list Z) t z, z = Z.of_nat (length l) -> rdZ ((l ++ [x]) ++ t) z = Ok x) as G1.
    { intros l x t z ->. unfold rdZ. replace (Z.of_nat (length l) <? 0)%Z with false by lia. rewrite Nat2Z.id. unfold rd. rewrite nth_error_mid. reflexivity. }
    assert (forall l (x y : list Z) t z, z = Z.of_nat (length l) -> wrZ ((l ++ [x]) ++ t) z y = Ok ((l ++ [y]) ++ t)) as G2.
    { intros l x y t z ->. unfold wrZ. replace (Z.of_nat (length l) <? 0)%Z with false by lia. rewrite Nat2Z.id. rewrite wr_Ok by (rewrite !app_length; cbn [length]; lia). rewrite upd_mid. reflexivity. }
    cbv zeta. rewrite (G1 _ _ _ _ Q1). cbn [bind]. rewrite (G2 _ _ _ _ _ Q1). cbn [bind]. rewrite (G1 _ _ _ _ Q2). cbn [bind]. rewrite (G2 _ _ _ _ _ Q2). cbn [bind].
    rewrite wr_Ok by lia. cbn [bind]. eexists. split; [reflexivity|]. split; [|split; [|split]].
    + split; [reflexivity|]. cbn [ls_msg ls_maps ls_count ls_parity ls_left a_par a_left a_hist map rev fst snd length]. auto.
    + cbn [ls_hard]. apply (upd_put []). lia.
    + reflexivity.
    + reflexivity.
  - cbn [bind]. rewrite select_ok by (try apply length_pairs; try apply A1; assumption). cbn [bind]. set (fork := ffork W (a_metric a) v).
    rewrite R2, R3, R4. cbn [groles parity_next fst] in Hm, Hm2. change (payload [Data]) with 1 in *. rewrite !wr_snoc by (rewrite ?rev_length, ?map_length; lia). cbn [bind].
    rewrite wr_Ok by lia. cbn [bind]. eexists. split; [reflexivity|]. split; [|split; [|split]].
    + split; [reflexivity|]. cbn [ls_msg ls_maps ls_count ls_parity ls_left a_par a_left a_hist map rev fst snd length]. split; [reflexivity|]. split; [reflexivity|]. split; [lia|]. intros _. split; [reflexivity|]. lia.
    + cbn [ls_hard]. apply (upd_put []). lia.
    + reflexivity.
    + reflexivity.
Qed.

(** ** Ranks *)
Lemma rank_ok metric rank : length metric = W -> (forall r, rank = Some r -> W <= length r) ->
  list_rank W metric rank = Ok (option_map (fun r => ranks metric ++ skipn W r) rank).
Proof.
  intros L Hr. destruct rank as [rank|]; [|reflexivity]. specialize (Hr _ eq_refl). cbn [list_rank option_map].
  set (cnt := fun k => Z.of_nat (length (filter (fun i => negb (nth i metric 0 =? nth (S i) metric 0)%Z) (seq 0 k)))).
  edestruct (for_up_inv (fun i '((r, rk) : Z * list Z) => r = cnt (i - 1) /\ rk = put 0 (map cnt (seq 0 i)) rank)
    (fun i '(r, rank) => r <- (if 0 <? i then (a <- rd metric (i - 1) ;; b <- rd metric i ;; Ok (if (a =? b)%Z then r else (r + 1)%Z)) else Ok r) ;;
        rank <- wr rank i r ;; Ok (r, rank)) 0 W (0%Z, rank)) as ([r rk] & E & I).
  4: { rewrite E. cbn [bind]. destruct I as (_ & ->). do 2 f_equal. rewrite put0, map_length, seq_length. unfold ranks. rewrite L. reflexivity. }
  - lia.
  - intros i [r rk] Hi (-> & ->).
    assert ((if 0 <? i then (a <- rd metric (i - 1) ;; b <- rd metric i ;; Ok (if (a =? b)%Z then cnt (i - 1) else (cnt (i - 1)%nat + 1)%Z)) else Ok (cnt (i - 1))) = Ok (cnt i)) as ->.
    { destruct i as [|i]; [reflexivity|]. replace (0 <? S i) with true by lia. rewrite (rd_nth metric (S i - 1) 0%Z), (rd_nth metric (S i) 0%Z) by lia. cbn [bind]. f_equal.
      replace (S i - 1) with i by lia. unfold cnt. rewrite seq_S, filter_app, app_length. cbn [Nat.add filter]. destruct (_ =? _)%Z; cbn [negb length]; lia. }
    cbn [bind]. rewrite wr_Ok by (rewrite length_put; rewrite ?map_length, ?seq_length; lia). cbn [bind]. eexists. split; [reflexivity|]. cbv beta iota.
    split; [f_equal; lia|]. rewrite seq_S, map_app. cbn [map Nat.add]. rewrite (upd_put 0%Z) by (rewrite length_put; rewrite ?map_length, ?seq_length; lia).
    rewrite <- put_app by (rewrite ?map_length, ?seq_length; cbn [length]; lia). rewrite map_length, seq_length. reflexivity.
  - split; reflexivity.
Qed.

(** ** The decisions in the final order *)
Fixpoint bits (h : list (list Z * list Z)) (k : nat) : list Z :=
  match h with [] => [] | (m, p) :: h => bits h (at_ p k) ++ [lane k m] end.
Fixpoint unrolled (acc : list Z) (h : list (list Z * list Z)) : list (list Z) :=
  match h with [] => [] | (m, p) :: h => vshuf m acc :: unrolled (vshuf p acc) h end.
Lemma length_unrolled h : forall acc, length (unrolled acc h) = length h.
Proof. induction h as [|[m p] h IH]; intros acc; [reflexivity|]. cbn. rewrite IH. reflexivity. Qed.
Lemma unrolled_bits h : forall acc k, Forall (fun e => lanes_are W pm1 (fst e) /\ is_map W (snd e)) h -> is_map W acc -> k < W -> lane_of k (rev (unrolled acc h)) = bits h (at_ acc k).
Proof.
  induction h as [|[m p] h IH]; intros acc k F Ha Hk; [reflexivity|]. inversion F as [|? ? (F1 & F2) F3]; subst. cbn [fst snd] in *.
  cbn [unrolled rev bits]. unfold lane_of in *. rewrite map_app. rewrite IH; [|exact F3|apply lanes_vshuf; assumption|exact Hk]. cbn [map]. f_equal.
  - rewrite (at_vshuf W) by assumption. reflexivity.
  - f_equal. apply (lane_vshuf W _ _ _ pm1); assumption.
Qed.
Lemma loop_shift {S} (f : nat -> S -> res S) n : forall i s, loop n (Datatypes.S i) f s = loop n i (fun k => f (Datatypes.S k)) s.
Proof. induction n as [|n IH]; intros i s; [reflexivity|]. cbn [loop]. destruct (f (Datatypes.S i) s); cbn [bind]; [apply IH|reflexivity..]. Qed.
Lemma for_down_S {S} (f : nat -> S -> res S) n s : for_down (Datatypes.S n) 0 f s = (s <- f n s ;; for_down n 0 f s).
Proof.
  unfold for_down. rewrite !Nat.sub_0_r. cbn [loop]. replace (Datatypes.S n - 1 - 0) with n by lia. destruct (f n s); cbn [bind]; [|reflexivity..].
  rewrite loop_shift. apply loop_ext. intros k s0 Hk. f_equal. lia.
Qed.
Lemma unroll_loop h : forall acc t maps2, let maps := rev (map snd h) ++ maps2 in
  exists acc', for_down (length h) 0 (fun i '(acc, message) => m <- rd message i ;; message <- wr message i (vshuf m acc) ;; p <- rd maps i ;; Ok (vshuf p acc, message))
    (acc, rev (map fst h) ++ t) = Ok (acc', rev (unrolled acc h) ++ t).
Proof.
  induction h as [|[m p] h IH]; intros acc t maps2; cbv zeta; [eexists; reflexivity|]. cbn [length map rev fst snd unrolled]. rewrite for_down_S. rewrite <- (app_assoc (rev (map fst h))).
  assert (rd (rev (map fst h) ++ [m] ++ t) (length h) = Ok m) as ->.
  { rewrite app_assoc. unfold rd. replace (length h) with (length (rev (map fst h))) by (rewrite rev_length, map_length; reflexivity). rewrite nth_error_mid. reflexivity. }
  cbn [bind]. rewrite app_assoc. rewrite wr_Ok by (rewrite !app_length, rev_length, map_length; cbn [length]; lia). cbn [bind].
  assert (upd ((rev (map fst h) ++ [m]) ++ t) (length h) (vshuf m acc) = (rev (map fst h) ++ [vshuf m acc]) ++ t) as ->.
  { replace (length h) with (length (rev (map fst h))) by (rewrite rev_length, map_length; reflexivity). apply upd_mid. }
  assert (rd ((rev (map snd h) ++ [p]) ++ maps2) (length h) = Ok p) as ->.
  { unfold rd. replace (length h) with (length (rev (map snd h))) by (rewrite rev_length, map_length; reflexivity). rewrite nth_error_mid. reflexivity. }
  cbn [bind]. destruct (IH (vshuf p acc) (vshuf m acc :: t) ([p] ++ maps2)) as (acc' & E). rewrite app_assoc in E. exists acc'. rewrite <- (app_assoc (rev (map fst h))). cbn [Datatypes.app] in *. rewrite E. rewrite <- app_assoc. reflexivity.
Qed.
Lemma unroll_ok h : h <> [] -> Forall (fun e => lanes_are W pm1 (fst e) /\ is_map W (snd e)) h ->
  exists message, list_unroll (rev (map fst h) ++ skipn (length h) msg0) (rev (map snd h) ++ skipn (length h) maps0) (length h) = Ok (message ++ skipn (length h) msg0) /\
    length message = length h /\ forall k, k < W -> lane_of k message = bits h k.
Proof.
  intros Hne F. destruct h as [|[m p] h]; [congruence|]. inversion F as [|? ? (F1 & F2) F3]; subst. cbn [fst snd] in *. unfold list_unroll. cbn [length map rev fst snd].
  assert (rdZ ((rev (map snd h) ++ [p]) ++ skipn (S (length h)) maps0) (Z.of_nat (S (length h)) - 1) = Ok p) as ->.
  { unfold rdZ. replace (Z.of_nat (S (length h)) - 1 <? 0)%Z with false by lia. replace (Z.to_nat (Z.of_nat (S (length h)) - 1)) with (length (rev (map snd h))) by (rewrite rev_length, map_length; lia).
    unfold rd. rewrite nth_error_mid. reflexivity. }
  cbn [bind]. replace (S (length h) - 1) with (length h) by lia. destruct (unroll_loop h p ([m] ++ skipn (S (length h)) msg0) ([p] ++ skipn (S (length h)) maps0)) as (acc' & E).
  rewrite !app_assoc in E. rewrite E. cbn [bind]. exists (rev (unrolled p h) ++ [m]). split; [reflexivity|]. split; [rewrite app_length, rev_length, length_unrolled; cbn [length]; lia|].
  intros k Hk. unfold lane_of. rewrite map_app. cbn [map bits]. f_equal. apply unrolled_bits; assumption.
Qed.
End Rates.

(** ** The whole function *)
Section Whole.
Variable W : nat.
Hypothesis HW : 1 <= W <= 256.
Variable P : polar_ops (list Z).
Hypothesis HP : vops_ok W P.
Variable next : nat -> role * nat.
Hypothesis next_ok : forall c, fst (next c) <> Frozen.
Variable tr : bool.
Variable rate1 : nat -> list_state -> res (list Z * list_state).
Hypothesis rate1_good : forall msg0 maps0 hoff, lgood W next msg0 maps0 tr 0 hoff [false] (rate1 hoff) (leaf W P next).

Definition start (first : nat) : ast := mk_ast (0%Z :: repeat 1000000%Z (W - 1)) [] (p_one P) first.
Lemma start_wf first : fst (next first) = Data -> awf W next 1000000 (start first).
Proof.
  intros Hf. split; [|split; [|split]]; cbn [a_metric a_par a_hist a_left start].
  - split; [cbn [length]; rewrite repeat_length; lia|]. constructor; [lia|]. apply Forall_forall. intros x Hx. apply repeat_spec in Hx. lia.
  - apply one_pm1; assumption.
  - constructor.
  - congruence.
Qed.
Lemma metric_start : (metric <- wr (repeat 0%Z W) 0 0%Z ;; for_up 1 W (fun k metric => wr metric k 1000000%Z) metric) = Ok (0%Z :: repeat 1000000%Z (W - 1)).
Proof.
  rewrite wr_Ok by (rewrite repeat_length; lia). cbn [bind]. assert (exists w, W = S w) as (w & ->) by (exists (W - 1); lia). cbn [repeat upd].
  edestruct (for_up_inv (fun i (l : list Z) => l = 0%Z :: repeat 1000000%Z (i - 1) ++ repeat 0%Z (S w - i)) (fun k metric => wr metric k 1000000%Z) 1 (S w) (0%Z :: repeat 0%Z w)) as (l & E & I).
  4: { rewrite E, I. rewrite Nat.sub_diag. cbn [repeat]. rewrite app_nil_r. reflexivity. }
  - lia.
  - intros i l Hi ->. rewrite wr_Ok by (cbn [length]; rewrite app_length, !repeat_length; lia). eexists. split; [reflexivity|].
    destruct i as [|i]; [lia|]. cbn [upd]. f_equal. replace (S i - 1) with i by lia. replace (S (S i) - 1) with (S i) by lia.
    replace (S w - S i) with (S (S w - S (S i))) by lia. cbn [repeat]. generalize (repeat 0%Z (S w - S (S i))). intros t.
    clear. induction i as [|i IH]; [reflexivity|]. cbn [repeat Datatypes.app upd]. f_equal. exact IH.
  - cbn [Nat.sub repeat Datatypes.app]. rewrite Nat.sub_0_r. reflexivity.
Qed.
Lemma decode_core MAX_M first soft hard maps rank message codeword frozen level :
  5 <= level <= 16 -> level <= MAX_M -> 2 * 2 ^ level <= length soft -> 2 ^ level <= length hard -> 2 ^ level <= length codeword ->
  2 ^ level <= 32 * length frozen -> uint32 frozen -> Forall int8 (firstn (2 ^ level) codeword) ->
  fst (next first) = Data ->
  let rs := groles next (flags frozen (2 ^ level)) first in
  payload rs <= length message -> payload rs <= length maps -> (forall r, rank = Some r -> W <= length r) ->
  let '(mp, x, a) := lnode W P next level (flags frozen (2 ^ level)) (start first) (map (vdup W) (firstn (2 ^ level) codeword)) in
  length x = 2 ^ level /\ awf W next (1000000 + 128 * Z.of_nat (2 ^ level)) a /\ length (a_hist a) = payload rs /\
  exists soft', length soft' = length soft /\
    list_decode_with W P rate1 MAX_M first soft hard maps rank message codeword frozen level =
      (message <- list_unroll (rev (map fst (a_hist a)) ++ skipn (length (a_hist a)) message) (rev (map snd (a_hist a)) ++ skipn (length (a_hist a)) maps) (length (a_hist a)) ;;
       Ok (soft', x ++ skipn (2 ^ level) hard, rev (map snd (a_hist a)) ++ skipn (length (a_hist a)) maps, option_map (fun r => ranks (a_metric a) ++ skipn W r) rank, message)).
Proof.
  intros HL HM Hs Hh Hc Hf Hu Hi Hnf rs Hm Hmp Hrk. pose proof (pow2_pos level) as Hp. pose proof (start_wf first Hnf) as Aw.
  set (fl := flags frozen (2 ^ level)) in *. set (cw := firstn (2 ^ level) codeword) in *. assert (length cw = 2 ^ level) as Lcw by (unfold cw; rewrite firstn_length; lia).
  set (sl := map (vdup W) cw). assert (length sl = 2 ^ level) as Lsl by (unfold sl; rewrite map_length; exact Lcw).
  assert (Forall (lanes_are W int8) sl) as Fsl by (unfold sl; apply Forall_map; eapply Forall_impl; [|exact Hi]; intros x Hx; apply lanes_dup; exact Hx).
  pose proof (lnode_fgood W HW P HP next next_ok level fl (length_flags _ _) ltac:(lia) 1000000%Z (start first) sl ltac:(lia) Aw Lsl Fsl) as FG.
  set (soft1 := put (2 ^ level) sl soft).
  assert (length soft1 = length soft) as Ls1 by (unfold soft1; rewrite length_put; lia).
  assert (seg (2 ^ level) (2 ^ level) soft1 = sl) as Esg by (unfold soft1; rewrite <- Lsl at 2; apply seg_put; lia).
  assert (forall t, lgood W next message maps tr level 0 fl t (lnode W P next level fl) ->
    let '(mp, x, a) := lnode W P next level fl (start first) sl in
    exists s', t (mk_ls (0%Z :: repeat 1000000%Z (W - 1)) message maps 0 hard soft1 (p_one P) first) = Ok (mp, s') /\ rep message maps tr s' a /\
      ls_hard s' = put 0 x hard /\ length (ls_soft s') = length soft) as Fin.
  { intros t G. specialize (G 1000000%Z (mk_ls (0%Z :: repeat 1000000%Z (W - 1)) message maps 0 hard soft1 (p_one P) first) (start first) ltac:(lia)).
    cbn [ls_soft ls_hard] in G. rewrite Esg in G. destruct (lnode W P next level fl (start first) sl) as [[mp x] a].
    destruct G as (s' & E & R & K & L' & _).
    - assert (2 ^ level <= 2 ^ 16) as Q by (apply Nat.pow_le_mono_r; lia). apply inj_le in Q. rewrite (Nat2Z.inj_pow 2 16) in Q. change (Z.of_nat 2 ^ Z.of_nat 16)%Z with 65536%Z in Q. lia.
    - exact Aw.
    - unfold rep, start. cbn [a_hist a_metric a_par a_left ls_metric ls_msg ls_maps ls_count ls_parity ls_left length map rev skipn Datatypes.app]. repeat split; (reflexivity || congruence || auto).
    - lia.
    - lia.
    - exact Fsl.
    - cbn [start a_hist a_left length Nat.add]. exact Hm.
    - cbn [start a_hist a_left length Nat.add]. exact Hmp.
    - exists s'. rewrite E. split; [reflexivity|]. split; [exact R|]. split; [exact K|]. lia. }
  assert (forall t, lgood W next message maps tr level 0 fl t (lnode W P next level fl) ->
    let '(mp, x, a) := lnode W P next level fl (start first) sl in
    length x = 2 ^ level /\ awf W next (1000000 + 128 * Z.of_nat (2 ^ level)) a /\ length (a_hist a) = payload rs /\
    exists soft', length soft' = length soft /\
    ('(_, s) <- t (mk_ls (0%Z :: repeat 1000000%Z (W - 1)) message maps 0 hard soft1 (p_one P) first) ;;
     rank <- list_rank W (ls_metric s) rank ;; message <- list_unroll (ls_msg s) (ls_maps s) (ls_count s) ;;
     Ok (ls_soft s, ls_hard s, ls_maps s, rank, message)) =
      (message <- list_unroll (rev (map fst (a_hist a)) ++ skipn (length (a_hist a)) message) (rev (map snd (a_hist a)) ++ skipn (length (a_hist a)) maps) (length (a_hist a)) ;;
       Ok (soft', x ++ skipn (2 ^ level) hard, rev (map snd (a_hist a)) ++ skipn (length (a_hist a)) maps, option_map (fun r => ranks (a_metric a) ++ skipn W r) rank, message))) as Fin2.
  { intros t G. specialize (Fin t G). destruct (lnode W P next level fl (start first) sl) as [[mp x] a]. destruct Fin as (s' & E & (R1 & R2 & R3 & R4 & _) & K & L').
    destruct FG as (_ & Lx & _ & A & Lh & _). cbn [start a_hist a_left length Nat.add] in Lh. fold rs in Lh. split; [exact Lx|]. split; [exact A|]. split; [exact Lh|].
    exists (ls_soft s'). split; [exact L'|].
    rewrite E. cbn [bind]. rewrite R1, rank_ok by (try apply A; assumption). cbn [bind]. rewrite R2, R3, R4. rewrite K, put0, Lx. reflexivity. }
  unfold list_decode_with. replace (level <=? MAX_M) with true by lia. replace (level <=? 30) with true by lia. cbn [assert_ require bind].
  pose proof metric_start as MS. destruct (wr (repeat 0%Z W) 0 0%Z) as [m0| | |]; cbn [bind] in MS |- *; try discriminate. rewrite MS. cbn [bind].
  rewrite (fill_ok (2 ^ level) (2 ^ level) (fun i => vdup W (nth i codeword 0%Z))).
  2: lia.
  2: { intros i cur Hi2 _. rewrite (rd_nth _ _ 0%Z) by lia. reflexivity. }
  cbn [bind].
  assert (map (fun i => vdup W (nth i codeword 0%Z)) (seq 0 (2 ^ level)) = sl) as ->.
  { unfold sl. rewrite <- (map_nth_map cw (vdup W) (2 ^ level) 0%Z) by exact Lcw. apply map_ext_in. intros i Hi2. apply in_seq in Hi2. unfold cw.
    rewrite nth_firstn'. replace (i <? 2 ^ level) with true by lia. reflexivity. }
  fold soft1. destruct (Nat.eqb_spec level 5) as [->|Hne].
  - rewrite (rd_nth _ _ 0%N) by (change (2 ^ 5) with 32 in Hf; lia). cbn [bind]. apply (Fin2 (list_tree_small W P rate1 5 0 (nth 0 frozen 0%N))).
    unfold fl. rewrite <- lflags_flags, lflags_word. apply lsmall_good; try assumption; [apply rate1_good|lia|apply uint32_nth; exact Hu].
  - replace ((6 <=? level) && (level <=? 16)) with true by lia. apply (Fin2 (list_tree W P rate1 (level - 6) 0 frozen 0)).
    unfold fl. rewrite <- lflags_flags. replace level with ((level - 6) + 6) at 1 2 4 5 by lia. apply ltree_good; try assumption; [apply rate1_good|].
    assert (2 ^ level = 32 * (2 * 2 ^ (level - 6))) as E by (replace level with ((level - 6) + 6) at 1 by lia; rewrite Nat.pow_add_r; change (2 ^ 6) with 64; lia).
    lia.
Qed.
Lemma decode_whole MAX_M first soft hard maps rank message codeword frozen level :
  5 <= level <= 16 -> level <= MAX_M -> 2 * 2 ^ level <= length soft -> 2 ^ level <= length hard -> 2 ^ level <= length codeword ->
  2 ^ level <= 32 * length frozen -> uint32 frozen -> Forall int8 (firstn (2 ^ level) codeword) ->
  fst (next first) = Data ->
  let rs := groles next (flags frozen (2 ^ level)) first in
  1 <= payload rs -> payload rs <= length message -> payload rs <= length maps -> (forall r, rank = Some r -> W <= length r) ->
  let '(mp, x, a) := lnode W P next level (flags frozen (2 ^ level)) (start first) (map (vdup W) (firstn (2 ^ level) codeword)) in
  exists soft' maps' out, length soft' = length soft /\ length maps' = length maps /\ length out = payload rs /\
    list_decode_with W P rate1 MAX_M first soft hard maps rank message codeword frozen level =
      Ok (soft', x ++ skipn (2 ^ level) hard, maps', option_map (fun r => ranks (a_metric a) ++ skipn W r) rank, out ++ skipn (payload rs) message) /\
    length (a_metric a) = W /\ forall k, k < W -> lane_of k out = bits (a_hist a) k.
Proof.
  intros HL HM Hs Hh Hc Hf Hu Hi Hnf rs H1 Hm Hmp Hrk.
  pose proof (decode_core MAX_M first soft hard maps rank message codeword frozen level HL HM Hs Hh Hc Hf Hu Hi Hnf Hm Hmp Hrk) as D.
  destruct (lnode W P next level _ _ _) as [[mp x] a]. destruct D as (Lx & (A1 & _ & A3 & _) & Lh & soft' & Ls & E). fold rs in Lh.
  destruct (unroll_ok W HW message maps (a_hist a)) as (out & Eu & Lo & Ho); [intros C; rewrite C in Lh; cbn [length] in Lh; lia|exact A3|].
  rewrite Eu in E. cbn [bind] in E. rewrite Lh in E. do 3 eexists. split; [exact Ls|]. split; [|split; [|split; [exact E|split; [apply A1|exact Ho]]]].
  - rewrite app_length, rev_length, map_length, skipn_length. lia.
  - lia.
Qed.
(** nothing to decode: the last map is read in front of the array *)
Lemma decode_empty MAX_M first soft hard maps rank message codeword frozen level :
  5 <= level <= 16 -> level <= MAX_M -> 2 * 2 ^ level <= length soft -> 2 ^ level <= length hard -> 2 ^ level <= length codeword ->
  2 ^ level <= 32 * length frozen -> uint32 frozen -> Forall int8 (firstn (2 ^ level) codeword) ->
  fst (next first) = Data -> payload (groles next (flags frozen (2 ^ level)) first) = 0 -> (forall r, rank = Some r -> W <= length r) ->
  list_decode_with W P rate1 MAX_M first soft hard maps rank message codeword frozen level = Undef.
Proof.
  intros HL HM Hs Hh Hc Hf Hu Hi Hnf H0 Hrk.
  pose proof (decode_core MAX_M first soft hard maps rank message codeword frozen level HL HM Hs Hh Hc Hf Hu Hi Hnf ltac:(cbv zeta; lia) ltac:(cbv zeta; lia) Hrk) as D.
  destruct (lnode W P next level _ _ _) as [[mp x] a]. destruct D as (_ & _ & Lh & soft' & _ & E). cbv zeta in Lh. rewrite H0 in Lh. destruct (a_hist a); [|discriminate]. exact E.
Qed.
End Whole.
