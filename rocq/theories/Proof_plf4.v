(** Polar list decoders with floating point lanes: single positions, ranks, the final order of the decisions, and the whole function. *)
From Coq Require Import ZifyBool ZifyNat ZifyN Floats.SpecFloat.
From Verif Require Import Cpp Model_simd Model_sort Model_polar Model_polar_list Model_polar_float Model_fsimd Model_polar_listf Spec_polar Spec_polar_float Spec_polar_list Spec_polar_listf
  Lib_list Lib_wht Proof_bits Proof_simd Proof_polar1 Proof_polar2 Proof_polar3 Proof_polar4 Proof_polar5 Proof_polar7 Proof_plist1 Proof_plist2 Proof_plist4 Proof_plf0 Proof_plf1 Proof_plf2 Proof_plf3.
From Verif Require Proof_plist3.
Local Open Scope nat_scope.
Ltac Zify.zify_post_hook ::= idtac.
Notation wr_snoc := Proof_plist3.wr_snoc.
Notation nth_error_mid := Proof_plist3.nth_error_mid.
Notation upd_mid := Proof_plist3.upd_mid.

Section Whole.
Variables (prec emax ub : Z) (W : nat).
Hypothesis Hp : (1 < prec)%Z.
Hypothesis He : (prec < emax)%Z.
Hypothesis HW : 1 <= W.
Hypothesis HU : (Z.of_nat W <= 2 ^ ub)%Z.
Notation P := (opsfv prec emax W).
Notation emb := (hard_value prec).
Notation embm := (map (map emb)).
Notation million := (million prec emax).
Notation step := (step_metric prec emax).
Variable SI : nat -> spec_float -> Prop.
Variable MI : spec_float -> Prop.
Notation ones := (repeat 1%Z W).
Section Rates.
Variables (msg0 : list (list spec_float)) (maps0 : list (list Z)).

Lemma map_rev_snoc {X Y} (f : X -> Y) l x : map f (rev l ++ [x]) = map f (rev l) ++ [f x].
Proof. rewrite map_app. reflexivity. Qed.
Lemma list_rate1f_good hoff : fgoodf prec W plain_next SI MI msg0 maps0 false 0 hoff [false] (list_rate1f prec emax ub W hoff) (gleaf prec emax W plain_next).
Proof.
  intros s a (A1 & A1' & A2 & A3 & A4) (R1 & R2 & R3 & R4 & R5) Hs Hh Fs Hm Hm2. change (2 ^ 0) with 1 in *. rewrite (seg1 []) in * by lia.
  pose proof (Forall_inv Fs) as Hv. unfold gleaf, list_rate1f. cbn [hd plain_next]. set (v := nth 1 (lf_soft s) []) in *.
  rewrite (rd_nth _ _ []) by lia. cbn [bind]. fold v. rewrite R1, (forkf_ok prec emax ub W HW) by (assumption || apply Hv). cbn [bind].
  rewrite selectf_ok by (try apply length_fpairs; assumption). cbn [bind]. set (fork := fforkf prec emax W (g_metric a) v).
  rewrite R2, R3, R4. cbn [groles plain_next fst] in Hm, Hm2. change (payload [Data]) with 1 in *. rewrite !wr_snoc by (rewrite ?map_length, ?rev_length, ?map_length; lia). cbn [bind].
  rewrite wr_Ok by lia. cbn [bind]. eexists. split; [reflexivity|]. split; [|split; [|split]].
  - split; [reflexivity|]. cbn [lf_msg lf_maps lf_count g_hist map rev fst snd length]. split; [rewrite map_rev_snoc; reflexivity|]. split; [reflexivity|]. split; [lia|discriminate].
  - cbn [lf_hard]. apply (upd_put []). lia.
  - reflexivity.
  - reflexivity.
Qed.
Lemma parity_rate1f_good stride hoff : fgoodf prec W (parity_next stride) SI MI msg0 maps0 true 0 hoff [false] (parity_rate1f prec emax ub W stride hoff) (gleaf prec emax W (parity_next stride)).
Proof.
  intros s a (A1 & A1' & A2 & A3 & A4) (R1 & R2 & R3 & R4 & R5) Hs Hh Fs Hm Hm2. change (2 ^ 0) with 1 in *. rewrite (seg1 []) in * by lia.
  pose proof (Forall_inv Fs) as Hv. destruct (R5 eq_refl) as (R6 & R7). unfold gleaf, parity_rate1f. cbn [hd]. set (v := nth 1 (lf_soft s) []) in *.
  rewrite (rd_nth _ _ []) by lia. cbn [bind]. fold v. rewrite R1, (forkf_ok prec emax ub W HW) by (assumption || apply Hv). cbn [bind]. rewrite R6, R7.
  destruct (g_left a) as [|c] eqn:El; cbn [parity_next fst Nat.eqb negb] in *.
  - rewrite (killf_ok prec emax ub W HW) by (try apply length_fpairs; exact A2). cbn [bind]. rewrite selectf_ok by (try apply length_fpairs; assumption). cbn [bind].
    set (fork := fkillf prec emax W _ _). specialize (A4 eq_refl). destruct (g_hist a) as [|[m p] h] eqn:Eh; [congruence|].  cbn [map rev fst snd length] in *.
    rewrite map_rev_snoc in R2. rewrite R2, R3, R4. set (t1 := skipn (S (length h)) msg0). set (t2 := skipn (S (length h)) maps0).
    assert (Z.of_nat (S (length h)) - 1 = Z.of_nat (length (embm (rev (map fst h)))))%Z as Q1 by (rewrite map_length, rev_length, map_length; lia).
    assert (Z.of_nat (S (length h)) - 1 = Z.of_nat (length (rev (map snd h))))%Z as Q2 by (rewrite rev_length, map_length; lia).
    assert (forall X l (x : X) t z, z = Z.of_nat (length l) -> rdZ ((l ++ [x]) ++ t) z = Ok x) as G1.
    { intros X l x t z ->. unfold rdZ. replace (Z.of_nat (length l) <? 0)%Z with false by lia. rewrite Nat2Z.id. unfold rd. rewrite nth_error_mid. reflexivity. }
    assert (forall X l (x y : X) t z, z = Z.of_nat (length l) -> wrZ ((l ++ [x]) ++ t) z y = Ok ((l ++ [y]) ++ t)) as G2.
    { intros X l x y t z ->. unfold wrZ. replace (Z.of_nat (length l) <? 0)%Z with false by lia. rewrite Nat2Z.id. rewrite wr_Ok by (rewrite !app_length; cbn [length]; lia). rewrite upd_mid. reflexivity. }
    cbv zeta. rewrite (G1 _ _ _ _ _ Q1). cbn [bind]. rewrite (G2 _ _ _ _ _ _ Q1). cbn [bind]. rewrite (G1 _ _ _ _ _ Q2). cbn [bind]. rewrite (G2 _ _ _ _ _ _ Q2). cbn [bind].
    rewrite wr_Ok by lia. cbn [bind]. eexists. split; [reflexivity|]. split; [|split; [|split]].
    + split; [reflexivity|]. cbn [lf_msg lf_maps lf_count lf_parity lf_left g_par g_left g_hist map rev fst snd length]. split; [rewrite map_rev_snoc, shuf_emb; reflexivity|].
      split; [reflexivity|]. split; [reflexivity|]. intros _. split; [apply (one_is prec emax ub W); assumption|reflexivity].
    + cbn [lf_hard]. apply (upd_put []). lia.
    + reflexivity.
    + reflexivity.
  - cbn [bind]. rewrite selectf_ok by (try apply length_fpairs; assumption). cbn [bind]. set (fork := fforkf prec emax W (g_metric a) v).
    destruct (selectf_spec ub W HW fork (length_fpairs _ _ _)) as (S1 & S2 & _).
    rewrite R2, R3, R4. cbn [groles parity_next fst] in Hm, Hm2. change (payload [Data]) with 1 in *. rewrite !wr_snoc by (rewrite ?map_length, ?rev_length, ?map_length; lia). cbn [bind].
    rewrite wr_Ok by lia. cbn [bind]. eexists. split; [reflexivity|]. split; [|split; [|split]].
    + split; [reflexivity|]. cbn [lf_msg lf_maps lf_count lf_parity lf_left g_par g_left g_hist map rev fst snd length]. split; [rewrite map_rev_snoc; reflexivity|]. split; [reflexivity|]. split; [lia|]. intros _. split; [|lia].
      rewrite shuf_emb. apply (mul_emb_v prec emax ub W); try assumption; [apply (lanes_vshuf W); assumption|apply S2].
    + cbn [lf_hard]. apply (upd_put []). lia.
    + reflexivity.
    + reflexivity.
Qed.

(** ** Ranks *)
Lemma rankf_ok metric rank : length metric = W -> (forall r, rank = Some r -> W <= length r) ->
  list_rankf W metric rank = Ok (option_map (fun r => ranksf metric ++ skipn W r) rank).
Proof.
  intros L Hr. destruct rank as [rank|]; [|reflexivity]. specialize (Hr _ eq_refl). cbn [list_rankf option_map].
  set (cnt := fun k => Z.of_nat (length (filter (fun i => negb (SFeqb (nth i metric z0) (nth (S i) metric z0))) (seq 0 k)))).
  edestruct (for_up_inv (fun i '((r, rk) : Z * list Z) => r = cnt (i - 1) /\ rk = put 0 (map cnt (seq 0 i)) rank)
    (fun i '(r, rank) => r <- (if 0 <? i then (a <- rd metric (i - 1) ;; b <- rd metric i ;; Ok (if SFeqb a b then r else (r + 1)%Z)) else Ok r) ;;
        rank <- wr rank i r ;; Ok (r, rank)) 0 W (0%Z, rank)) as ([r rk] & E & I).
  4: { rewrite E. cbn [bind]. destruct I as (_ & ->). do 2 f_equal. rewrite put0, map_length, seq_length. unfold ranksf. rewrite L. reflexivity. }
  - lia.
  - intros i [r rk] Hi (-> & ->).
    assert ((if 0 <? i then (a <- rd metric (i - 1) ;; b <- rd metric i ;; Ok (if SFeqb a b then cnt (i - 1) else (cnt (i - 1)%nat + 1)%Z)) else Ok (cnt (i - 1))) = Ok (cnt i)) as ->.
    { destruct i as [|i]; [reflexivity|]. replace (0 <? S i) with true by lia. rewrite (rd_nth metric (S i - 1) z0), (rd_nth metric (S i) z0) by lia. cbn [bind]. f_equal.
      replace (S i - 1) with i by lia. unfold cnt. rewrite seq_S, filter_app, app_length. cbn [Nat.add filter]. destruct (SFeqb _ _); cbn [negb length]; lia. }
    cbn [bind]. rewrite wr_Ok by (rewrite length_put; rewrite ?map_length, ?seq_length; lia). cbn [bind]. eexists. split; [reflexivity|]. cbv beta iota.
    split; [f_equal; lia|]. rewrite seq_S, map_app. cbn [map Nat.add]. rewrite (upd_put 0%Z) by (rewrite length_put; rewrite ?map_length, ?seq_length; lia).
    rewrite <- put_app by (rewrite ?map_length, ?seq_length; cbn [length]; lia). rewrite map_length, seq_length. reflexivity.
  - split; reflexivity.
Qed.

(** ** The decisions in the final order *)
Lemma unrolled_bitsf h : forall acc k, Forall (fun e => lanes_are W pm1 (fst e) /\ is_map W (snd e)) h -> is_map W acc -> k < W -> lane_of k (rev (unrolled acc h)) = bits h (at_ acc k).
Proof.
  induction h as [|[m p] h IH]; intros acc k F Ha Hk; [reflexivity|]. inversion F as [|? ? (F1 & F2) F3]; subst. cbn [fst snd] in *.
  cbn [unrolled rev bits]. unfold lane_of in *. rewrite map_app. rewrite IH; [|exact F3|apply lanes_vshuf; assumption|exact Hk]. cbn [map]. f_equal.
  - rewrite (at_vshuf W) by assumption. reflexivity.
  - f_equal. apply (lane_vshuf W _ _ _ pm1); assumption.
Qed.
Lemma loop_shift' {S} (f : nat -> S -> res S) n : forall i s, loop n (Datatypes.S i) f s = loop n i (fun k => f (Datatypes.S k)) s.
Proof. induction n as [|n IH]; intros i s; [reflexivity|]. cbn [loop]. destruct (f (Datatypes.S i) s); cbn [bind]; [apply IH|reflexivity..]. Qed.
Lemma for_down_S' {S} (f : nat -> S -> res S) n s : for_down (Datatypes.S n) 0 f s = (s <- f n s ;; for_down n 0 f s).
Proof.
  unfold for_down. rewrite !Nat.sub_0_r. cbn [loop]. replace (Datatypes.S n - 1 - 0) with n by lia. destruct (f n s); cbn [bind]; [|reflexivity..].
  rewrite loop_shift'. apply loop_ext. intros k s0 Hk. f_equal. lia.
Qed.
Lemma unroll_loopf h : forall acc t maps2, let maps := rev (map snd h) ++ maps2 in
  exists acc', for_down (length h) 0 (fun i '(acc, message) => m <- rd message i ;; message <- wr message i (fv_shuf m acc) ;; p <- rd maps i ;; Ok (vshuf p acc, message))
    (acc, embm (rev (map fst h)) ++ t) = Ok (acc', embm (rev (unrolled acc h)) ++ t).
Proof.
  induction h as [|[m p] h IH]; intros acc t maps2; cbv zeta; [eexists; reflexivity|]. cbn [length map rev fst snd unrolled]. rewrite for_down_S'. rewrite !map_rev_snoc. rewrite <- (app_assoc (embm (rev (map fst h)))).
  assert (length (embm (rev (map fst h))) = length h) as Ll by (rewrite map_length, rev_length, map_length; reflexivity).
  assert (rd (embm (rev (map fst h)) ++ [map emb m] ++ t) (length h) = Ok (map emb m)) as ->.
  { rewrite app_assoc. unfold rd. rewrite <- Ll. rewrite nth_error_mid. reflexivity. }
  cbn [bind]. rewrite app_assoc. rewrite wr_Ok by (rewrite !app_length, Ll; cbn [length]; lia). cbn [bind]. rewrite shuf_emb.
  assert (upd ((embm (rev (map fst h)) ++ [map emb m]) ++ t) (length h) (map emb (vshuf m acc)) = (embm (rev (map fst h)) ++ [map emb (vshuf m acc)]) ++ t) as ->.
  { rewrite <- Ll. apply upd_mid. }
  assert (rd ((rev (map snd h) ++ [p]) ++ maps2) (length h) = Ok p) as ->.
  { unfold rd. replace (length h) with (length (rev (map snd h))) by (rewrite rev_length, map_length; reflexivity). rewrite nth_error_mid. reflexivity. }
  cbn [bind]. destruct (IH (vshuf p acc) (map emb (vshuf m acc) :: t) ([p] ++ maps2)) as (acc' & E). rewrite app_assoc in E. exists acc'. rewrite <- (app_assoc (embm (rev (map fst h)))). cbn [Datatypes.app] in *. rewrite E. rewrite <- app_assoc. reflexivity.
Qed.
Lemma unrollf_ok h : h <> [] -> Forall (fun e => lanes_are W pm1 (fst e) /\ is_map W (snd e)) h ->
  exists message, list_unrollf (embm (rev (map fst h)) ++ skipn (length h) msg0) (rev (map snd h) ++ skipn (length h) maps0) (length h) = Ok (embm message ++ skipn (length h) msg0) /\
    length message = length h /\ forall k, k < W -> lane_of k message = bits h k.
Proof.
  intros Hne F. destruct h as [|[m p] h]; [congruence|]. inversion F as [|? ? (F1 & F2) F3]; subst. cbn [fst snd] in *. unfold list_unrollf. cbn [length map rev fst snd].
  assert (rdZ ((rev (map snd h) ++ [p]) ++ skipn (S (length h)) maps0) (Z.of_nat (S (length h)) - 1) = Ok p) as ->.
  { unfold rdZ. replace (Z.of_nat (S (length h)) - 1 <? 0)%Z with false by lia. replace (Z.to_nat (Z.of_nat (S (length h)) - 1)) with (length (rev (map snd h))) by (rewrite rev_length, map_length; lia).
    unfold rd. rewrite nth_error_mid. reflexivity. }
  cbn [bind]. replace (S (length h) - 1) with (length h) by lia. rewrite map_rev_snoc. destruct (unroll_loopf h p ([map emb m] ++ skipn (S (length h)) msg0) ([p] ++ skipn (S (length h)) maps0)) as (acc' & E).
  rewrite !app_assoc in E. rewrite E. cbn [bind]. exists (rev (unrolled p h) ++ [m]). split; [rewrite map_rev_snoc; reflexivity|]. split; [rewrite app_length, rev_length, length_unrolled; cbn [length]; lia|].
  intros k Hk. unfold lane_of. rewrite map_app. cbn [map bits]. f_equal. apply unrolled_bitsf; assumption.
Qed.
End Rates.

(** ** The whole function *)
Variable next : nat -> role * nat.
Hypothesis next_ok : forall c, fst (next c) <> Frozen.
Hypothesis SIl : forall m a b, SI (S m) a -> SI (S m) b -> SI m (combine_left_f prec emax a b).
Hypothesis SIr : forall m h a b, pm1 h -> SI (S m) a -> SI (S m) b -> SI m (combine_right_f prec emax (emb h) a b).
Hypothesis MIs : forall n u m x, pm1 u -> MI m -> SI n x -> MI (step u m x).
Hypothesis MIm : MI million.
Hypothesis MI0 : MI z0.
Variable tr : bool.
Variable rate1 : nat -> list_statef -> res (list Z * list_statef).
Hypothesis rate1_good : forall msg0 maps0 hoff, fgoodf prec W next SI MI msg0 maps0 tr 0 hoff [false] (rate1 hoff) (gleaf prec emax W next).

Definition startf (first : nat) : gst := mk_gst (z0 :: repeat million (W - 1)) [] ones first.
Lemma startf_wf first : fst (next first) = Data -> gwf W next MI (startf first).
Proof.
  intros Hf. split; [|split; [|split; [|split]]]; cbn [g_metric g_par g_hist g_left startf].
  - cbn [length]. rewrite repeat_length. lia.
  - constructor; [exact MI0|]. apply Forall_forall. intros x Hx. apply repeat_spec in Hx. subst. exact MIm.
  - apply ones_pm1.
  - constructor.
  - congruence.
Qed.
Lemma metric_startf : (metric <- wr (repeat z0 W) 0 z0 ;; for_up 1 W (fun k metric => wr metric k million) metric) = Ok (z0 :: repeat million (W - 1)).
Proof.
  rewrite wr_Ok by (rewrite repeat_length; lia). cbn [bind]. assert (exists w, W = S w) as (w & ->) by (exists (W - 1); lia). cbn [repeat upd].
  edestruct (for_up_inv (fun i (l : list spec_float) => l = z0 :: repeat million (i - 1) ++ repeat z0 (S w - i)) (fun k metric => wr metric k million) 1 (S w) (z0 :: repeat z0 w)) as (l & E & I).
  4: { rewrite E, I. rewrite Nat.sub_diag. cbn [repeat]. rewrite app_nil_r. reflexivity. }
  - lia.
  - intros i l Hi ->. rewrite wr_Ok by (cbn [length]; rewrite app_length, !repeat_length; lia). eexists. split; [reflexivity|].
    destruct i as [|i]; [lia|]. cbn [upd]. f_equal. replace (S i - 1) with i by lia. replace (S (S i) - 1) with (S i) by lia.
    replace (S w - S i) with (S (S w - S (S i))) by lia. cbn [repeat]. generalize (repeat z0 (S w - S (S i))). intros t.
    clear. induction i as [|i IH]; [reflexivity|]. cbn [repeat Datatypes.app upd]. f_equal. exact IH.
  - cbn [Nat.sub repeat Datatypes.app]. rewrite Nat.sub_0_r. reflexivity.
Qed.
Lemma decode_coref MAX_M first soft hard maps rank message codeword frozen level :
  5 <= level <= 16 -> level <= MAX_M -> 2 * 2 ^ level <= length soft -> 2 ^ level <= length hard -> 2 ^ level <= length codeword ->
  2 ^ level <= 32 * length frozen -> uint32 frozen -> Forall (SI level) (firstn (2 ^ level) codeword) ->
  fst (next first) = Data ->
  let rs := groles next (flags frozen (2 ^ level)) first in
  payload rs <= length message -> payload rs <= length maps -> (forall r, rank = Some r -> W <= length r) ->
  let '(mp, x, a) := gnode prec emax W next level (flags frozen (2 ^ level)) (startf first) (map (fun x => repeat x W) (firstn (2 ^ level) codeword)) in
  length x = 2 ^ level /\ gwf W next MI a /\ length (g_hist a) = payload rs /\
  exists soft', length soft' = length soft /\
    list_decode_withf prec emax ub W rate1 MAX_M first soft hard maps rank message codeword frozen level =
      (message <- list_unrollf (embm (rev (map fst (g_hist a))) ++ skipn (length (g_hist a)) message) (rev (map snd (g_hist a)) ++ skipn (length (g_hist a)) maps) (length (g_hist a)) ;;
       Ok (soft', embm x ++ skipn (2 ^ level) hard, rev (map snd (g_hist a)) ++ skipn (length (g_hist a)) maps, option_map (fun r => ranksf (g_metric a) ++ skipn W r) rank, message)).
Proof.
  intros HL HM Hs Hh Hc Hf Hu Hi Hnf rs Hm Hmp Hrk. pose proof (pow2_pos level) as Hpw. pose proof (startf_wf first Hnf) as Aw.
  set (fl := flags frozen (2 ^ level)) in *. set (cw := firstn (2 ^ level) codeword) in *. assert (length cw = 2 ^ level) as Lcw by (unfold cw; rewrite firstn_length; lia).
  set (sl := map (fun x => repeat x W) cw). assert (length sl = 2 ^ level) as Lsl by (unfold sl; rewrite map_length; exact Lcw).
  assert (Forall (Isf W SI level) sl) as Fsl by (unfold sl; apply Forall_map; eapply Forall_impl; [|exact Hi]; intros x Hx; split; [apply repeat_length|]; apply Forall_forall; intros y Hy; apply repeat_spec in Hy; subst; exact Hx).
  pose proof (gnode_good prec emax ub W Hp He HW next next_ok SI MI SIl SIr MIs MIm level fl (length_flags _ _) ltac:(lia) (startf first) sl Aw Lsl Fsl) as FG.
  set (soft1 := put (2 ^ level) sl soft).
  assert (length soft1 = length soft) as Ls1 by (unfold soft1; rewrite length_put; lia).
  assert (seg (2 ^ level) (2 ^ level) soft1 = sl) as Esg by (unfold soft1; rewrite <- Lsl at 2; apply seg_put; lia).
  assert (forall t, fgoodf prec W next SI MI message maps tr level 0 fl t (gnode prec emax W next level fl) ->
    let '(mp, x, a) := gnode prec emax W next level fl (startf first) sl in
    exists s', t (mk_lsf (z0 :: repeat million (W - 1)) message maps 0 hard soft1 (p_one P) first) = Ok (mp, s') /\ repf prec message maps tr s' a /\
      lf_hard s' = put 0 (embm x) hard /\ length (lf_soft s') = length soft) as Fin.
  { intros t G. specialize (G (mk_lsf (z0 :: repeat million (W - 1)) message maps 0 hard soft1 (p_one P) first) (startf first)).
    cbn [lf_soft lf_hard] in G. rewrite Esg in G. destruct (gnode prec emax W next level fl (startf first) sl) as [[mp x] a].
    destruct G as (s' & E & R & K & L' & _).
    - exact Aw.
    - unfold repf, startf. cbn [g_hist g_metric g_par g_left lf_metric lf_msg lf_maps lf_count lf_parity lf_left length map rev skipn Datatypes.app]. split; [reflexivity|]. split; [reflexivity|]. split; [reflexivity|]. split; [reflexivity|]. intros _. split; [apply (one_is prec emax ub W); assumption|reflexivity].
    - lia.
    - lia.
    - exact Fsl.
    - cbn [startf g_hist g_left length Nat.add]. exact Hm.
    - cbn [startf g_hist g_left length Nat.add]. exact Hmp.
    - exists s'. rewrite E. split; [reflexivity|]. split; [exact R|]. split; [exact K|]. lia. }
  assert (forall t, fgoodf prec W next SI MI message maps tr level 0 fl t (gnode prec emax W next level fl) ->
    let '(mp, x, a) := gnode prec emax W next level fl (startf first) sl in
    length x = 2 ^ level /\ gwf W next MI a /\ length (g_hist a) = payload rs /\
    exists soft', length soft' = length soft /\
    ('(_, s) <- t (mk_lsf (z0 :: repeat million (W - 1)) message maps 0 hard soft1 (p_one P) first) ;;
     rank <- list_rankf W (lf_metric s) rank ;; message <- list_unrollf (lf_msg s) (lf_maps s) (lf_count s) ;;
     Ok (lf_soft s, lf_hard s, lf_maps s, rank, message)) =
      (message <- list_unrollf (embm (rev (map fst (g_hist a))) ++ skipn (length (g_hist a)) message) (rev (map snd (g_hist a)) ++ skipn (length (g_hist a)) maps) (length (g_hist a)) ;;
       Ok (soft', embm x ++ skipn (2 ^ level) hard, rev (map snd (g_hist a)) ++ skipn (length (g_hist a)) maps, option_map (fun r => ranksf (g_metric a) ++ skipn W r) rank, message))) as Fin2.
  { intros t G. specialize (Fin t G). destruct (gnode prec emax W next level fl (startf first) sl) as [[mp x] a]. destruct Fin as (s' & E & (R1 & R2 & R3 & R4 & _) & K & L').
    destruct FG as (_ & Lx & _ & A & Lh & _). cbn [startf g_hist g_left length Nat.add] in Lh. fold rs in Lh. split; [exact Lx|]. split; [exact A|]. split; [exact Lh|].
    exists (lf_soft s'). split; [exact L'|].
    rewrite E. cbn [bind]. rewrite R1, rankf_ok by (try apply A; assumption). cbn [bind]. rewrite R2, R3, R4. rewrite K, put0, map_length, Lx. reflexivity. }
  unfold list_decode_withf. change (fzero prec emax) with z0. replace (level <=? MAX_M) with true by lia. replace (level <=? 30) with true by lia. cbn [assert_ require bind].
  pose proof metric_startf as MS. destruct (wr (repeat z0 W) 0 z0) as [m0| | |]; cbn [bind] in MS |- *; try discriminate. rewrite MS. cbn [bind].
  rewrite (fill_ok (2 ^ level) (2 ^ level) (fun i => repeat (nth i codeword z0) W)).
  2: lia.
  2: { intros i cur Hi2 _. rewrite (rd_nth _ _ z0) by lia. reflexivity. }
  cbn [bind].
  assert (map (fun i => repeat (nth i codeword z0) W) (seq 0 (2 ^ level)) = sl) as ->.
  { unfold sl. rewrite <- (map_nth_map cw (fun x => repeat x W) (2 ^ level) z0) by exact Lcw. apply map_ext_in. intros i Hi2. apply in_seq in Hi2. unfold cw.
    rewrite nth_firstn'. replace (i <? 2 ^ level) with true by lia. reflexivity. }
  fold soft1. destruct (Nat.eqb_spec level 5) as [->|Hne].
  - rewrite (rd_nth _ _ 0%N) by (change (2 ^ 5) with 32 in Hf; lia). cbn [bind]. apply (Fin2 (list_tree_smallf prec emax ub W rate1 5 0 (nth 0 frozen 0%N))).
    unfold fl. rewrite <- lflags_flags, lflags_word. apply (fsmall_good prec emax ub W Hp He HW HU next next_ok SI MI SIl SIr MIs MIm); try assumption; [apply rate1_good|lia|apply uint32_nth; exact Hu].
  - replace ((6 <=? level) && (level <=? 16)) with true by lia. apply (Fin2 (list_treef prec emax ub W rate1 (level - 6) 0 frozen 0)).
    unfold fl. rewrite <- lflags_flags. replace level with ((level - 6) + 6) at 1 2 4 5 by lia. apply (ftree_good prec emax ub W Hp He HW HU next next_ok SI MI SIl SIr MIs MIm); try assumption; [apply rate1_good|].
    assert (2 ^ level = 32 * (2 * 2 ^ (level - 6))) as E by (replace level with ((level - 6) + 6) at 1 by lia; rewrite Nat.pow_add_r; change (2 ^ 6) with 64; lia).
    lia.
Qed.
Lemma decode_wholef MAX_M first soft hard maps rank message codeword frozen level :
  5 <= level <= 16 -> level <= MAX_M -> 2 * 2 ^ level <= length soft -> 2 ^ level <= length hard -> 2 ^ level <= length codeword ->
  2 ^ level <= 32 * length frozen -> uint32 frozen -> Forall (SI level) (firstn (2 ^ level) codeword) ->
  fst (next first) = Data ->
  let rs := groles next (flags frozen (2 ^ level)) first in
  1 <= payload rs -> payload rs <= length message -> payload rs <= length maps -> (forall r, rank = Some r -> W <= length r) ->
  let '(mp, x, a) := gnode prec emax W next level (flags frozen (2 ^ level)) (startf first) (map (fun x => repeat x W) (firstn (2 ^ level) codeword)) in
  exists soft' maps' out, length soft' = length soft /\ length maps' = length maps /\ length out = payload rs /\
    list_decode_withf prec emax ub W rate1 MAX_M first soft hard maps rank message codeword frozen level =
      Ok (soft', embm x ++ skipn (2 ^ level) hard, maps', option_map (fun r => ranksf (g_metric a) ++ skipn W r) rank, embm out ++ skipn (payload rs) message) /\
    length (g_metric a) = W /\ forall k, k < W -> lane_of k out = bits (g_hist a) k.
Proof.
  intros HL HM Hs Hh Hc Hf Hu Hi Hnf rs H1 Hm Hmp Hrk.
  pose proof (decode_coref MAX_M first soft hard maps rank message codeword frozen level HL HM Hs Hh Hc Hf Hu Hi Hnf Hm Hmp Hrk) as D.
  destruct (gnode prec emax W next level _ _ _) as [[mp x] a]. destruct D as (Lx & (A1 & _ & _ & A3 & _) & Lh & soft' & Ls & E). fold rs in Lh.
  destruct (unrollf_ok message maps (g_hist a)) as (out & Eu & Lo & Ho); [intros C; rewrite C in Lh; cbn [length] in Lh; lia|exact A3|].
  rewrite Eu in E. cbn [bind] in E. rewrite Lh in E. do 3 eexists. split; [exact Ls|]. split; [|split; [|split; [exact E|split; [exact A1|exact Ho]]]].
  - rewrite app_length, rev_length, map_length, skipn_length. lia.
  - lia.
Qed.
(** nothing to decode: the last map is read in front of the array *)
Lemma decode_emptyf MAX_M first soft hard maps rank message codeword frozen level :
  5 <= level <= 16 -> level <= MAX_M -> 2 * 2 ^ level <= length soft -> 2 ^ level <= length hard -> 2 ^ level <= length codeword ->
  2 ^ level <= 32 * length frozen -> uint32 frozen -> Forall (SI level) (firstn (2 ^ level) codeword) ->
  fst (next first) = Data -> payload (groles next (flags frozen (2 ^ level)) first) = 0 -> (forall r, rank = Some r -> W <= length r) ->
  list_decode_withf prec emax ub W rate1 MAX_M first soft hard maps rank message codeword frozen level = Undef.
Proof.
  intros HL HM Hs Hh Hc Hf Hu Hi Hnf H0 Hrk.
  pose proof (decode_coref MAX_M first soft hard maps rank message codeword frozen level HL HM Hs Hh Hc Hf Hu Hi Hnf ltac:(cbv zeta; lia) ltac:(cbv zeta; lia) Hrk) as D.
  destruct (gnode prec emax W next level _ _ _) as [[mp x] a]. destruct D as (_ & _ & Lh & soft' & _ & E). cbv zeta in Lh. rewrite H0 in Lh. destruct (g_hist a); [|discriminate]. exact E.
Qed.
End Whole.
