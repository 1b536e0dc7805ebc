(** Polar list decoders: the trees compute [lnode]. *)
From Coq Require Import ZifyBool ZifyNat ZifyN.
From Verif Require Import Cpp Model_simd Model_sort Model_polar Model_polar_list Spec_polar Spec_polar_list Lib_list Lib_wht
  Proof_bits Proof_simd Proof_polar1 Proof_polar2 Proof_polar3 Proof_polar4 Proof_polar5 Proof_polar7 Proof_plist1 Proof_plist2.
Local Open Scope nat_scope.
Ltac Zify.zify_post_hook ::= idtac.

Lemma wr_snoc {X} (l : list X) n m0 v : length l = n -> n < length m0 -> wr (l ++ skipn n m0) n v = Ok ((l ++ [v]) ++ skipn (S n) m0).
Proof.
  intros L H. rewrite wr_Ok by (rewrite app_length, skipn_length; lia). f_equal.
  assert (exists x, skipn n m0 = x :: skipn (S n) m0) as (x & ->).
  { clear - H. revert m0 H. induction n as [|n IH]; intros [|y m0] H; cbn [length] in H; try lia; [eexists; reflexivity|]. destruct (IH m0 ltac:(lia)) as (x & E). exists x. exact E. }
  subst n. generalize (skipn (S (length l)) m0). intros t. clear. induction l as [|y l IH]; [reflexivity|]. cbn. f_equal. exact IH.
Qed.
Lemma nth_error_mid {X} (l t : list X) x : nth_error ((l ++ [x]) ++ t) (length l) = Some x.
Proof. induction l as [|y l IH]; [reflexivity|]. exact IH. Qed.
Lemma upd_mid {X} (l t : list X) x v : upd ((l ++ [x]) ++ t) (length l) v = (l ++ [v]) ++ t.
Proof. induction l as [|y l IH]; [reflexivity|]. cbn. f_equal. exact IH. Qed.

Section Decoder.
Variable W : nat.
Hypothesis HW : 1 <= W <= 256.
Variable P : polar_ops (list Z).
Hypothesis HP : vops_ok W P.
Variable next : nat -> role * nat.
Hypothesis next_ok : forall c, fst (next c) <> Frozen.
(** the contents of the arrays before *)
Variables msg0 maps0 : list (list Z).
(** are there parity symbols? *)
Variable tr : bool.
Notation Is := (lanes_are W int8).
Notation Iv := (lanes_are W pm1).
Notation is_map := (is_map W).
Notation groles := (groles next).
Notation gafter := (gafter next).
Notation awf := (awf W next).
Notation fgood := (fgood W next).
Notation leaf := (leaf W P next).
Notation lr0 := (lr0 W P).
Notation lchild := (lchild W P).
Notation lnode := (lnode W P next).

Definition rep (s : list_state) (a : ast) : Prop :=
  ls_metric s = a_metric a /\
  ls_msg s = rev (map fst (a_hist a)) ++ skipn (length (a_hist a)) msg0 /\
  ls_maps s = rev (map snd (a_hist a)) ++ skipn (length (a_hist a)) maps0 /\
  ls_count s = length (a_hist a) /\
  (tr = true -> ls_parity s = a_par a /\ ls_left s = a_left a).
Definition imp := list_state -> res (list Z * list_state).
Definition lgood (n hoff : nat) (fl : list bool) (f : imp) (F : fn) : Prop := forall B s a,
  (1000000 <= B)%Z -> (B + 128 * Z.of_nat (2 ^ n) <= 2147483647)%Z -> awf B a -> rep s a ->
  2 * 2 ^ n <= length (ls_soft s) -> hoff + 2 ^ n <= length (ls_hard s) -> Forall Is (seg (2 ^ n) (2 ^ n) (ls_soft s)) ->
  length (a_hist a) + payload (groles fl (a_left a)) <= length msg0 -> length (a_hist a) + payload (groles fl (a_left a)) <= length maps0 ->
  let '(mp, x, a') := F a (seg (2 ^ n) (2 ^ n) (ls_soft s)) in
  exists s', f s = Ok (mp, s') /\ rep s' a' /\ ls_hard s' = put hoff x (ls_hard s) /\
    length (ls_soft s') = length (ls_soft s) /\ skipn (2 ^ n) (ls_soft s') = skipn (2 ^ n) (ls_soft s).
Lemma lgood_ext n hoff fl f g F : lgood n hoff fl f F -> (forall s, f s = g s) -> lgood n hoff fl g F.
Proof.
  intros H E B s a H1 H2 H3 H4 H5 H6 H7 H8 H9. specialize (H B s a H1 H2 H3 H4 H5 H6 H7 H8 H9). destruct (F a _) as [[mp x] a']. rewrite <- E. exact H.
Qed.

Lemma list_left_ok m s : 2 * 2 ^ S m <= length (ls_soft s) ->
  list_left P (2 ^ S m) s = Ok (mk_ls (ls_metric s) (ls_msg s) (ls_maps s) (ls_count s) (ls_hard s)
    (put (2 ^ m) (fleft P m (seg (2 ^ S m) (2 ^ S m) (ls_soft s))) (ls_soft s)) (ls_parity s) (ls_left s)).
Proof.
  intros H. pose proof (left_ok P [] m (mk_ps [] 0 [] (ls_soft s)) H) as E. unfold polar_left in E. cbn [ps_soft ps_msg ps_pos ps_hard] in E.
  unfold list_left. destruct (for_up _ _ _ _) as [soft| | |]; cbn [bind] in E; try discriminate.
  apply (f_equal (fun r => match r with Ok t => ps_soft t | _ => [] end)) in E. cbn [ps_soft] in E. rewrite E. reflexivity.
Qed.
Lemma list_right_ok m hoff lm s : 2 * 2 ^ S m <= length (ls_soft s) -> hoff + 2 ^ m <= length (ls_hard s) ->
  list_right P (2 ^ S m) hoff lm s = Ok (mk_ls (ls_metric s) (ls_msg s) (ls_maps s) (ls_count s) (ls_hard s)
    (put (2 ^ m) (lright P m lm (seg hoff (2 ^ m) (ls_hard s)) (seg (2 ^ S m) (2 ^ S m) (ls_soft s))) (ls_soft s)) (ls_parity s) (ls_left s)).
Proof.
  intros H Hh. set (Q := mk_ops (list Z) (p_one P) (p_signum P) (p_mul P) (p_prod P) (fun h a b => p_madd P h (vshuf a lm) (vshuf b lm))).
  pose proof (right_ok Q [] m hoff (mk_ps [] 0 (ls_hard s) (ls_soft s)) H Hh) as E. unfold polar_right in E. cbn [ps_soft ps_msg ps_pos ps_hard p_madd Q] in E.
  unfold list_right. destruct (for_up _ _ _ _) as [soft| | |]; cbn [bind] in E; try discriminate.
  apply (f_equal (fun r => match r with Ok t => ps_soft t | _ => [] end)) in E. cbn [ps_soft] in E. rewrite E. reflexivity.
Qed.
Lemma list_join_ok m hoff lm rm s : hoff + 2 ^ S m <= length (ls_hard s) ->
  list_join P (2 ^ S m) hoff lm rm s = Ok (vshuf lm rm, mk_ls (ls_metric s) (ls_msg s) (ls_maps s) (ls_count s)
    (put hoff (zip2 (fun x y => p_mul P (vshuf x rm) y) (seg hoff (2 ^ m) (ls_hard s)) (seg (hoff + 2 ^ m) (2 ^ m) (ls_hard s))) (ls_hard s)) (ls_soft s) (ls_parity s) (ls_left s)).
Proof.
  intros Hh. set (Q := mk_ops (list Z) (p_one P) (p_signum P) (fun x y => p_mul P (vshuf x rm) y) (p_prod P) (p_madd P)).
  pose proof (join_ok Q [] m hoff (mk_ps [] 0 (ls_hard s) (ls_soft s)) Hh) as E. unfold polar_join in E. cbn [ps_soft ps_msg ps_pos ps_hard p_mul Q] in E.
  unfold list_join. destruct (for_up _ _ _ _) as [hard| | |]; cbn [bind] in E; try discriminate.
  apply (f_equal (fun r => match r with Ok t => ps_hard t | _ => [] end)) in E. cbn [ps_hard] in E. rewrite E. reflexivity.
Qed.

Lemma put_join {X} (g : X -> X -> X) (d : X) hoff h x1 x2 (hard : list X) : length x1 = h -> length x2 = h -> hoff + 2 * h <= length hard ->
  let Hd := put (hoff + h) x2 (put hoff x1 hard) in
  put hoff (zip2 g (seg hoff h Hd) (seg (hoff + h) h Hd)) Hd = put hoff (zip2 g x1 x2 ++ x2) hard.
Proof.
  intros L1 L2 H. cbv zeta.
  assert (length (zip2 g x1 x2) = h) as Lz by (rewrite length_zip2; lia).
  assert (length (put hoff x1 hard) = length hard) as Q1 by (apply length_put; lia).
  assert (length (put (hoff + h) x2 (put hoff x1 hard)) = length hard) as Q2 by (rewrite length_put; lia).
  assert (seg hoff h (put (hoff + h) x2 (put hoff x1 hard)) = x1) as ->.
  { apply (list_ext _ _ d); [rewrite length_seg; lia|]. intros i Hi. rewrite length_seg in Hi by lia. rewrite nth_seg by lia. rewrite !nth_put by lia.
    replace ((hoff + h <=? hoff + i) && (hoff + i <? hoff + h + length x2)) with false by lia. replace ((hoff <=? hoff + i) && (hoff + i <? hoff + length x1)) with true by lia.
    f_equal. lia. }
  assert (seg (hoff + h) h (put (hoff + h) x2 (put hoff x1 hard)) = x2) as -> by (rewrite <- L2 at 2; apply seg_put; lia).
  apply (list_ext _ _ d); [rewrite !length_put; rewrite ?app_length; rewrite ?length_put; rewrite ?length_put; lia|].
  intros i Hi. rewrite !nth_put by (rewrite ?app_length; lia). rewrite app_length, Lz, L1, L2.
  destruct (Nat.ltb_spec i (hoff + h)) as [C|C].
  - replace (hoff + h <=? i) with false by lia. replace (i <? hoff + (h + h)) with true by lia. cbn [andb]. rewrite !andb_true_r.
    destruct (Nat.leb_spec hoff i); [|reflexivity]. rewrite app_nth1 by lia. reflexivity.
  - replace (hoff <=? i) with true by lia. replace (hoff + h <=? i) with true by lia. cbn [andb].
    replace (i <? hoff + (h + h)) with (i <? hoff + h + h) by lia. destruct (Nat.ltb_spec i (hoff + h + h)); [|reflexivity]. rewrite app_nth2 by lia. f_equal. lia.
Qed.

Lemma node_lgood m hoff fl f g F G : length fl = 2 ^ S m ->
  fgood m (firstn (2 ^ m) fl) F -> fgood m (skipn (2 ^ m) fl) G ->
  lgood m hoff (firstn (2 ^ m) fl) f F -> lgood m (hoff + 2 ^ m) (skipn (2 ^ m) fl) g G ->
  lgood (S m) hoff fl (fun s => s <- list_left P (2 ^ S m) s ;; '(lmap, s) <- f s ;; s <- list_right P (2 ^ S m) hoff lmap s ;; '(rmap, s) <- g s ;; list_join P (2 ^ S m) hoff lmap rmap s)
    (ljoin P F G m).
Proof.
  intros Lfl GF GG HF HG B s a HB HB2 Ha Hr Hs Hh Fs Hm Hm2. pose proof (pow2_pos m) as Hp.
  rewrite <- (firstn_skipn (2 ^ m) fl) in Hm, Hm2. rewrite groles_app, payload_app in Hm, Hm2.
  set (sl := seg (2 ^ S m) (2 ^ S m) (ls_soft s)) in *. assert (length sl = 2 ^ S m) as Ls by (apply length_seg; lia).
  unfold ljoin. destruct (fleft_wf W HW P HP next next_ok m sl Ls Fs) as (L1 & F1).
  rewrite list_left_ok by exact Hs. fold sl. cbn [bind]. set (s1 := mk_ls _ _ _ _ _ _ _ _).
  assert (length (ls_soft s1) = length (ls_soft s)) as Ls1 by (cbn [ls_soft s1]; rewrite length_put; cbn [Nat.pow] in *; lia).
  assert (seg (2 ^ m) (2 ^ m) (ls_soft s1) = fleft P m sl) as E1 by (cbn [ls_soft s1]; rewrite <- L1 at 2; apply seg_put; cbn [Nat.pow] in *; lia).
  specialize (GF B a _ HB Ha L1 F1). specialize (HF B s1 a HB). rewrite E1 in HF.
  destruct (F a (fleft P m sl)) as [[lm x1] a1]. destruct GF as (M1 & X1 & V1 & A1 & H1 & C1).
  destruct HF as (s2 & E2 & R2 & K2 & Ls2 & S2); [cbn [Nat.pow] in *; lia|exact Ha|exact Hr|cbn [Nat.pow] in *; lia|cbn [ls_hard s1 Nat.pow] in *; lia|exact F1|lia|lia|].
  rewrite E2. cbn [bind]. cbn [ls_hard s1] in K2.
  assert (length (ls_hard s2) = length (ls_hard s)) as Lh2 by (rewrite K2; apply length_put; cbn [Nat.pow] in *; lia).
  destruct (lright_wf W HW P HP next next_ok m lm x1 sl Ls Fs M1 X1 V1) as (L2 & F2).
  assert (forall o, 2 ^ S m <= o -> skipn o (ls_soft s2) = skipn o (ls_soft s)) as Q2.
  { intros o Ho. transitivity (skipn o (ls_soft s1)); [apply (skipn_le (2 ^ m)); [cbn [Nat.pow] in Ho; lia|exact S2]|].
    cbn [ls_soft s1]. apply skipn_put; cbn [Nat.pow] in *; lia. }
  rewrite list_right_ok by (rewrite ?Lh2; cbn [Nat.pow] in *; lia). cbn [bind].
  assert (seg hoff (2 ^ m) (ls_hard s2) = x1) as E3 by (rewrite K2; rewrite <- X1 at 1; apply seg_put; cbn [Nat.pow] in *; lia).
  assert (seg (2 ^ S m) (2 ^ S m) (ls_soft s2) = sl) as E4 by (apply skipn_seg, Q2; lia).
  rewrite E3, E4. set (s3 := mk_ls _ _ _ _ _ _ _ _).
  assert (length (ls_soft s3) = length (ls_soft s)) as Ls3 by (cbn [ls_soft s3]; rewrite length_put; cbn [Nat.pow] in *; lia).
  assert (seg (2 ^ m) (2 ^ m) (ls_soft s3) = lright P m lm x1 sl) as E5 by (cbn [ls_soft s3]; rewrite <- L2 at 2; apply seg_put; cbn [Nat.pow] in *; lia).
  specialize (GG (B + 128 * Z.of_nat (2 ^ m))%Z a1 _ ltac:(lia) A1 L2 F2). specialize (HG (B + 128 * Z.of_nat (2 ^ m))%Z s3 a1 ltac:(lia)). rewrite E5 in HG.
  destruct (G a1 (lright P m lm x1 sl)) as [[rm x2] a2]. destruct GG as (M2 & X2 & V2 & A2 & H2 & C2).
  destruct HG as (s4 & E6 & R4 & K4 & Ls4 & S4); [cbn [Nat.pow] in *; lia|exact A1|exact R2|cbn [Nat.pow] in *; lia|cbn [ls_hard s3]; rewrite Lh2; cbn [Nat.pow] in *; lia|exact F2|rewrite C1; lia|rewrite C1; lia|].
  rewrite E6. cbn [bind]. cbn [ls_hard s3] in K4.
  assert (length (ls_hard s4) = length (ls_hard s)) as Lh4 by (rewrite K4, length_put; cbn [Nat.pow] in *; lia).
  rewrite list_join_ok by (rewrite Lh4; exact Hh). eexists. split; [reflexivity|]. split; [exact R4|]. cbn [ls_hard ls_soft]. split; [|split].
  - rewrite K4, K2. apply (put_join _ []); cbn [Nat.pow] in *; lia.
  - lia.
  - transitivity (skipn (2 ^ S m) (ls_soft s3)); [apply (skipn_le (2 ^ m)); [cbn [Nat.pow]; lia|exact S4]|].
    cbn [ls_soft s3]. rewrite skipn_put by (cbn [Nat.pow] in *; lia). apply Q2. lia.
Qed.

(** ** rate 0 *)
Lemma charge_one metric v B : lanes_are W (fun x => (0 <= x <= B)%Z) metric -> Is v -> (B + 128 <= 2147483647)%Z ->
  for_up 0 W (fun k metric => v <- Ok v ;; x <- rd v k ;;
      if (x <? 0)%Z then (m <- rd metric k ;; m <- chk (m - x) ;; wr metric k m) else Ok metric) metric = Ok (map (fun k => (lane k metric + neg_part (lane k v))%Z) (seq 0 W)).
Proof.
  intros Hm Hv HB.
  edestruct (for_up_inv (fun i (f : list Z) => length f = W /\ forall k, k < W -> lane k f = if k <? i then (lane k metric + neg_part (lane k v))%Z else lane k metric)
    (fun k metric => v <- Ok v ;; x <- rd v k ;;
      if (x <? 0)%Z then (m <- rd metric k ;; m <- chk (m - x) ;; wr metric k m) else Ok metric) 0 W metric) as (f & E & L & I).
  4: { rewrite E. f_equal. apply (list_ext _ _ 0%Z); [rewrite map_length, seq_length; exact L|]. intros k Hk. rewrite nth_map_seq. rewrite L in Hk.
       specialize (I k Hk). unfold lane at 1 in I. rewrite I. replace (k <? W) with true by lia. reflexivity. }
  - lia.
  - intros i f Hi (L & I). cbn [bind]. pose proof (lanes_get W _ _ i Hm ltac:(lia)) as Rm. pose proof (lanes_get W _ _ i Hv ltac:(lia)) as Rv. cbv beta in Rm. unfold int8 in Rv.
    rewrite (rd_nth v i 0%Z) by (destruct Hv; lia). cbn [bind]. fold (lane i v). specialize (I i ltac:(lia)) as Ii. replace (i <? i) with false in Ii by lia.
    destruct (Z.ltb_spec (lane i v) 0) as [C|C].
    + rewrite (rd_nth f i 0%Z) by lia. cbn [bind]. fold (lane i f). rewrite Ii, chk_ok by lia. cbn [bind]. rewrite wr_Ok by lia. eexists. split; [reflexivity|]. rewrite length_upd. split; [exact L|].
      intros k Hk. unfold lane at 1. destruct (Nat.eq_dec k i) as [->|Hne].
      * rewrite nth_upd_eq by lia. replace (i <? S i) with true by lia. unfold neg_part. lia.
      * rewrite nth_upd_neq by lia. fold (lane k f). rewrite I by exact Hk. replace (k <? S i) with (k <? i) by lia. reflexivity.
    + eexists. split; [reflexivity|]. split; [exact L|]. intros k Hk. destruct (Nat.eq_dec k i) as [->|Hne].
      * rewrite Ii. replace (i <? S i) with true by lia. unfold neg_part. lia.
      * rewrite I by exact Hk. replace (k <? S i) with (k <? i) by lia. reflexivity.
  - split; [apply Hm|]. intros k Hk. reflexivity.
Qed.
Lemma firstn_S_nth {X} (l : list X) i d : i < length l -> firstn (S i) l = firstn i l ++ [nth i l d].
Proof. revert i. induction l as [|x l IH]; intros [|i] H; cbn [length] in H; try lia; [reflexivity|]. cbn [firstn nth Datatypes.app]. f_equal. apply IH. lia. Qed.
Lemma rate0_lgood n hoff fl : length fl = 2 ^ n -> forallb (fun b => b) fl = true -> lgood n hoff fl (list_rate0 W P n hoff) (lr0 n).
Proof.
  intros Lfl Af B s a HB HB2 Ha Hr Hs Hh Fs Hm Hm2. unfold Proof_plist2.lr0. unfold list_rate0.
  rewrite (fill_ok (2 ^ n) hoff (fun _ => p_one P)); [|exact Hh|intros; reflexivity]. cbn [bind]. rewrite map_const_seq.
  set (sl := seg (2 ^ n) (2 ^ n) (ls_soft s)) in *. assert (length sl = 2 ^ n) as Ls by (apply length_seg; lia).
  destruct Hr as (R1 & R2 & R3 & R4 & R5). destruct Ha as (A1 & A2). rewrite R1.
  edestruct (for_up_inv (fun i (f : list Z) => f = charged W (a_metric a) (firstn i sl))
    (fun i metric => for_up 0 W (fun k metric => v <- rd (ls_soft s) (i + 2 ^ n) ;; x <- rd v k ;;
      if (x <? 0)%Z then (m <- rd metric k ;; m <- chk (m - x) ;; wr metric k m) else Ok metric) metric) 0 (2 ^ n) (a_metric a)) as (f & E & I).
  4: { rewrite E. cbn [bind]. rewrite iota_ok by exact HW. cbn [bind]. eexists. split; [reflexivity|]. rewrite I. rewrite firstn_all2 by lia.
       split; [|split; [reflexivity|split; reflexivity]]. split; [reflexivity|]. split; [exact R2|]. split; [exact R3|]. split; [exact R4|exact R5]. }
  - lia.
  - intros i f Hi ->. assert (rd (ls_soft s) (i + 2 ^ n) = Ok (nth i sl [])) as Er.
    { rewrite (rd_nth _ _ []) by lia. unfold sl. rewrite nth_seg by lia. do 2 f_equal. lia. }
    assert (Forall Is (firstn i sl)) as Fi by (apply Forall_firstn_; exact Fs).
    assert (length (firstn i sl) = i) as Li by (rewrite firstn_length; lia).
    pose proof (charged_wf W HW next next_ok B (a_metric a) (firstn i sl) A1 Fi) as Wf. rewrite Li in Wf.
    unfold for_up. rewrite (loop_ext _ (fun k metric => v <- Ok (nth i sl []) ;; x <- rd v k ;;
      if (x <? 0)%Z then (m <- rd metric k ;; m <- chk (m - x) ;; wr metric k m) else Ok metric)) by (intros; rewrite Er; reflexivity).
    pose proof (charge_one _ (nth i sl []) _ Wf) as C1. unfold for_up in C1. rewrite C1.
    + eexists. split; [reflexivity|]. unfold charged at 2. rewrite (firstn_S_nth sl i []) by lia. apply map_ext_in. intros k Hk. apply in_seq in Hk.
      rewrite (lane_charged W HW next next_ok) by lia. unfold lane_of. rewrite map_app. cbn [map]. rewrite charge_snoc. unfold lane. lia.
    + rewrite Forall_forall in Fs. apply Fs. apply nth_In. lia.
    + lia.
  - unfold charged. cbn [firstn]. unfold lane_of. cbn [map]. change (charge []) with 0%Z. symmetry. apply (list_ext _ _ 0%Z); [rewrite map_length, seq_length; symmetry; apply A1|].
    intros k Hk. rewrite map_length, seq_length in Hk. rewrite nth_map_seq. replace (k <? W) with true by lia. unfold lane. cbn [Nat.add]. lia.
Qed.

(** ** The trees *)
Section Tree.
Variable rate1 : nat -> list_state -> res (list Z * list_state).
Hypothesis rate1_good : forall hoff, lgood 0 hoff [false] (rate1 hoff) leaf.
Let FG := lchild_fgood W HW P HP next next_ok.

Lemma lchild_good m hoff f t : m <= 5 -> (f < 2 ^ N.of_nat (2 ^ m))%N -> lgood m hoff (nbits m f) t (lnode m (nbits m f)) ->
  lgood m hoff (nbits m f) (fun s => if (f =? N.shiftl 1 (N.of_nat (2 ^ m)) - 1)%N then list_rate0 W P m hoff s else t s)
    (lchild m (nbits m f) (lnode m (nbits m f))).
Proof.
  intros Hm Hf Ht. unfold Proof_plist2.lchild. replace (m <=? 5) with true by lia. cbn [andb]. pose proof (nbits_all m f Hf) as E. rewrite E.
  destruct (f =? N.shiftl 1 (N.of_nat (2 ^ m)) - 1)%N; [apply rate0_lgood; [apply length_nbits|exact E]|exact Ht].
Qed.
Lemma lleaf_good hoff f : (f < 2)%N -> lgood 0 hoff (nbits 0 f) (fun s => if (f =? 0)%N then rate1 hoff s else list_rate0 W P 0 hoff s) (lchild 0 (nbits 0 f) (lnode 0 (nbits 0 f))).
Proof.
  intros Hf. assert (f = 0 \/ f = 1)%N as [-> | ->] by lia; [apply rate1_good|apply (rate0_lgood 0); reflexivity].
Qed.
Lemma lsmall_good M : forall hoff f, 1 <= M <= 5 -> (f < 2 ^ N.of_nat (2 ^ M))%N -> lgood M hoff (nbits M f) (list_tree_small W P rate1 M hoff f) (lnode M (nbits M f)).
Proof.
  induction M as [|m IH]; intros hoff f HM Hf; [lia|]. destruct m as [|m].
  - cbn [list_tree_small]. 
    assert (lnode 1 (nbits 1 f) = ljoin P (lchild 0 (firstn (2 ^ 0) (nbits 1 f)) (lnode 0 (firstn (2 ^ 0) (nbits 1 f))))
      (lchild 0 (skipn (2 ^ 0) (nbits 1 f)) (lnode 0 (skipn (2 ^ 0) (nbits 1 f)))) 0) as -> by reflexivity.
    apply (node_lgood 0 hoff (nbits 1 f) (fun s => if (N.land f 1 =? 0)%N then rate1 hoff s else list_rate0 W P 0 hoff s)
       (fun s => if (N.shiftr f 1 =? 0)%N then rate1 (hoff + 1) s else list_rate0 W P 0 (hoff + 1) s)); rewrite ?nbits_low, ?nbits_high;
      [apply length_nbits|apply FG, length_nbits..| |]; change (N.shiftl 1 (N.of_nat (2 ^ 0)) - 1)%N with 1%N; change (N.of_nat (2 ^ 0)) with 1%N.
    + apply lleaf_good. apply (low_lt f 0).
    + apply lleaf_good. apply (high_lt f 0). exact Hf.
  - cbn [list_tree_small]. set (n := S m) in *.
    assert (lnode (S n) (nbits (S n) f) = ljoin P (lchild n (firstn (2 ^ n) (nbits (S n) f)) (lnode n (firstn (2 ^ n) (nbits (S n) f))))
      (lchild n (skipn (2 ^ n) (nbits (S n) f)) (lnode n (skipn (2 ^ n) (nbits (S n) f)))) n) as -> by reflexivity.
    set (g := 2 ^ n). rewrite half_pow. unfold g.
    eapply lgood_ext; [apply (node_lgood n hoff (nbits (S n) f)); rewrite ?nbits_low, ?nbits_high; [apply length_nbits|apply FG, length_nbits..| |]|].
    + apply lchild_good; [lia|apply low_lt|]. apply IH; [lia|apply low_lt].
    + apply lchild_good; [lia|apply high_lt; exact Hf|]. apply IH; [lia|apply high_lt; exact Hf].
    + intros s. reflexivity.
Qed.
Lemma ltree6_good hoff frozen fo : uint32 frozen -> fo + 2 <= length frozen -> lgood 6 hoff (lflags frozen fo 6) (list_tree6 W P rate1 hoff frozen fo) (lnode 6 (lflags frozen fo 6)).
Proof.
  intros Hu Hf.
  assert (lnode 6 (lflags frozen fo 6) = ljoin P (lchild 5 (firstn (2 ^ 5) (lflags frozen fo 6)) (lnode 5 (firstn (2 ^ 5) (lflags frozen fo 6))))
      (lchild 5 (skipn (2 ^ 5) (lflags frozen fo 6)) (lnode 5 (skipn (2 ^ 5) (lflags frozen fo 6)))) 5) as -> by reflexivity.
  eapply lgood_ext; [apply (node_lgood 5 hoff (lflags frozen fo 6)); rewrite ?lflags_low, ?(lflags_high _ _ _ 1) by reflexivity; rewrite ?lflags_word; [apply length_lflags|apply FG, length_nbits..| |]|].
  - apply lchild_good; [lia|apply uint32_nth; exact Hu|]. apply lsmall_good; [lia|apply uint32_nth; exact Hu].
  - apply lchild_good; [lia|apply uint32_nth; exact Hu|]. apply lsmall_good; [lia|apply uint32_nth; exact Hu].
  - intros s. unfold list_tree6. rewrite (rd_nth frozen (fo + 0) 0%N), (rd_nth frozen (fo + 1) 0%N) by lia. rewrite Nat.add_0_r. reflexivity.
Qed.
Lemma ltree_good dd : forall hoff frozen fo, uint32 frozen -> fo + 2 * 2 ^ dd <= length frozen ->
  lgood (dd + 6) hoff (lflags frozen fo (dd + 6)) (list_tree W P rate1 dd hoff frozen fo) (lnode (dd + 6) (lflags frozen fo (dd + 6))).
Proof.
  induction dd as [|dd IH]; intros hoff frozen fo Hu Hf; [apply ltree6_good; [exact Hu|cbn in Hf; lia]|].
  assert (2 ^ (dd + 6) = 32 * (2 * 2 ^ dd)) as E by (rewrite Nat.pow_add_r; change (2 ^ 6) with 64; lia).
  cbn [list_tree]. change (S dd + 6) with (S (dd + 6)). set (n := dd + 6) in *.
  assert (lnode (S n) (lflags frozen fo (S n)) = ljoin P (lchild n (firstn (2 ^ n) (lflags frozen fo (S n))) (lnode n (firstn (2 ^ n) (lflags frozen fo (S n)))))
      (lchild n (skipn (2 ^ n) (lflags frozen fo (S n))) (lnode n (skipn (2 ^ n) (lflags frozen fo (S n))))) n) as -> by reflexivity.
  rewrite half_pow. assert (2 ^ n / 32 = 2 * 2 ^ dd) as -> by (rewrite E, Nat.mul_comm; apply Nat.div_mul; lia).
  cbn [Nat.pow] in Hf.
  apply (node_lgood n hoff (lflags frozen fo (S n))); rewrite ?lflags_low, ?(lflags_high _ _ _ (2 * 2 ^ dd)) by exact E; [apply length_lflags|apply FG, length_lflags..| |];
    unfold Proof_plist2.lchild; replace (n <=? 5) with false by (unfold n; lia); cbn [andb]; apply IH; (exact Hu || lia).
Qed.
End Tree.
End Decoder.
