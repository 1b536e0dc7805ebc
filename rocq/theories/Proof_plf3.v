(** Polar list decoders with floating point lanes: the trees compute [gnode]. *)
From Coq Require Import ZifyBool ZifyNat ZifyN Floats.SpecFloat.
From Verif Require Import Cpp Model_simd Model_sort Model_polar Model_polar_list Model_polar_float Model_fsimd Model_polar_listf Spec_polar Spec_polar_float Spec_polar_list Spec_polar_listf
  Lib_list Lib_wht Proof_bits Proof_simd Proof_polar1 Proof_polar2 Proof_polar3 Proof_polar4 Proof_polar5 Proof_polar7 Proof_plist1 Proof_plist2 Proof_plf0 Proof_plf1 Proof_plf2.
From Verif Require Proof_plist3.
Local Open Scope nat_scope.
Ltac Zify.zify_post_hook ::= idtac.

Lemma put_join {X} (g : X -> X -> X) (d : X) hoff h x1 x2 (hard : list X) : length x1 = h -> length x2 = h -> hoff + 2 * h <= length hard ->
  let Hd := put (hoff + h) x2 (put hoff x1 hard) in
  put hoff (zip2 g (seg hoff h Hd) (seg (hoff + h) h Hd)) Hd = put hoff (zip2 g x1 x2 ++ x2) hard.
Proof.
  intros L1 L2 H. cbv zeta.
  assert (length (zip2 g x1 x2) = h) as Lz by (rewrite length_zip2; lia).
  assert (length (put hoff x1 hard) = length hard) as Q1 by (apply length_put; lia).
  assert (length (put (hoff + h) x2 (put hoff x1 hard)) = length hard) as Q2 by (rewrite length_put; lia).
  assert (seg hoff h (put (hoff + h) x2 (put hoff x1 hard)) = x1) as ->.
  { apply (list_ext _ _ d); [rewrite length_seg; lia|]. intros i Hi. rewrite length_seg in Hi by lia. rewrite nth_seg by lia. rewrite !nth_put by lia.
    replace ((hoff + h <=? hoff + i) && (hoff + i <? hoff + h + length x2)) with false by lia. replace ((hoff <=? hoff + i) && (hoff + i <? hoff + length x1)) with true by lia.
    f_equal. lia. }
  assert (seg (hoff + h) h (put (hoff + h) x2 (put hoff x1 hard)) = x2) as -> by (rewrite <- L2 at 2; apply seg_put; lia).
  apply (list_ext _ _ d); [rewrite !length_put; rewrite ?app_length; rewrite ?length_put; rewrite ?length_put; lia|].
  intros i Hi. rewrite !nth_put by (rewrite ?app_length; lia). rewrite app_length, Lz, L1, L2.
  destruct (Nat.ltb_spec i (hoff + h)) as [C|C].
  - replace (hoff + h <=? i) with false by lia. replace (i <? hoff + (h + h)) with true by lia. cbn [andb]. rewrite !andb_true_r.
    destruct (Nat.leb_spec hoff i); [|reflexivity]. rewrite app_nth1 by lia. reflexivity.
  - replace (hoff <=? i) with true by lia. replace (hoff + h <=? i) with true by lia. cbn [andb].
    replace (i <? hoff + (h + h)) with (i <? hoff + h + h) by lia. destruct (Nat.ltb_spec i (hoff + h + h)); [|reflexivity]. rewrite app_nth2 by lia. f_equal. lia.
Qed.

Lemma firstn_S_nth {X} (l : list X) i d : i < length l -> firstn (S i) l = firstn i l ++ [nth i l d].
Proof. revert i. induction l as [|x l IH]; intros [|i] H; cbn [length] in H; try lia; [reflexivity|]. cbn [firstn nth Datatypes.app]. f_equal. apply IH. lia. Qed.

Section Decoder.
Variables (prec emax ub : Z) (W : nat).
Hypothesis Hp : (1 < prec)%Z.
Hypothesis He : (prec < emax)%Z.
Hypothesis HW : 1 <= W.
Hypothesis HU : (Z.of_nat W <= 2 ^ ub)%Z.
Notation P := (opsfv prec emax W).
Notation emb := (hard_value prec).
Notation embm := (map (map emb)).
Notation million := (million prec emax).
Notation step := (step_metric prec emax).
Variable next : nat -> role * nat.
Hypothesis next_ok : forall c, fst (next c) <> Frozen.
Variable SI : nat -> spec_float -> Prop.
Variable MI : spec_float -> Prop.
Hypothesis SIl : forall m a b, SI (S m) a -> SI (S m) b -> SI m (combine_left_f prec emax a b).
Hypothesis SIr : forall m h a b, pm1 h -> SI (S m) a -> SI (S m) b -> SI m (combine_right_f prec emax (emb h) a b).
Hypothesis MIs : forall n u m x, pm1 u -> MI m -> SI n x -> MI (step u m x).
Hypothesis MIm : MI million.
(** the contents of the arrays before *)
Variables (msg0 : list (list spec_float)) (maps0 : list (list Z)).
(** are there parity symbols? *)
Variable tr : bool.
Notation Is := (Isf W SI).
Notation Iv := (lanes_are W pm1).
Notation is_map := (is_map W).
Notation groles := (groles next).
Notation gafter := (gafter next).
Notation gwf := (gwf W next MI).
Notation ggood := (ggood W next SI MI).
Notation gleaf := (gleaf prec emax W next).
Notation gr0 := (gr0 prec emax W).
Notation gchild := (gchild prec emax W).
Notation gnode := (gnode prec emax W next).
Notation gcharged := (gcharged prec emax W).

Definition repf (s : list_statef) (a : gst) : Prop :=
  lf_metric s = g_metric a /\
  lf_msg s = embm (rev (map fst (g_hist a))) ++ skipn (length (g_hist a)) msg0 /\
  lf_maps s = rev (map snd (g_hist a)) ++ skipn (length (g_hist a)) maps0 /\
  lf_count s = length (g_hist a) /\
  (tr = true -> lf_parity s = map emb (g_par a) /\ lf_left s = g_left a).
Definition impf := list_statef -> res (list Z * list_statef).
Definition fgoodf (n hoff : nat) (fl : list bool) (f : impf) (F : gn) : Prop := forall s a,
  gwf a -> repf s a ->
  2 * 2 ^ n <= length (lf_soft s) -> hoff + 2 ^ n <= length (lf_hard s) -> Forall (Is n) (seg (2 ^ n) (2 ^ n) (lf_soft s)) ->
  length (g_hist a) + payload (groles fl (g_left a)) <= length msg0 -> length (g_hist a) + payload (groles fl (g_left a)) <= length maps0 ->
  let '(mp, x, a') := F a (seg (2 ^ n) (2 ^ n) (lf_soft s)) in
  exists s', f s = Ok (mp, s') /\ repf s' a' /\ lf_hard s' = put hoff (embm x) (lf_hard s) /\
    length (lf_soft s') = length (lf_soft s) /\ skipn (2 ^ n) (lf_soft s') = skipn (2 ^ n) (lf_soft s).
Lemma fgoodf_ext n hoff fl f g F : fgoodf n hoff fl f F -> (forall s, f s = g s) -> fgoodf n hoff fl g F.
Proof.
  intros H E s a H3 H4 H5 H6 H7 H8 H9. specialize (H s a H3 H4 H5 H6 H7 H8 H9). destruct (F a _) as [[mp x] a']. rewrite <- E. exact H.
Qed.

Lemma list_leftf_ok m s : 2 * 2 ^ S m <= length (lf_soft s) ->
  list_leftf prec emax W (2 ^ S m) s = Ok (mk_lsf (lf_metric s) (lf_msg s) (lf_maps s) (lf_count s) (lf_hard s)
    (put (2 ^ m) (fleft P m (seg (2 ^ S m) (2 ^ S m) (lf_soft s))) (lf_soft s)) (lf_parity s) (lf_left s)).
Proof.
  intros H. pose proof (left_ok P [] m (mk_ps [] 0 [] (lf_soft s)) H) as E. unfold polar_left in E. cbn [ps_soft ps_msg ps_pos ps_hard] in E.
  unfold list_leftf. destruct (for_up _ _ _ _) as [soft| | |]; cbn [bind] in E; try discriminate.
  apply (f_equal (fun r => match r with Ok t => ps_soft t | _ => [] end)) in E. cbn [ps_soft] in E. rewrite E. reflexivity.
Qed.
Lemma list_rightf_ok m hoff lm x1 s : 2 * 2 ^ S m <= length (lf_soft s) -> hoff + 2 ^ m <= length (lf_hard s) -> seg hoff (2 ^ m) (lf_hard s) = embm x1 ->
  list_rightf prec emax W (2 ^ S m) hoff lm s = Ok (mk_lsf (lf_metric s) (lf_msg s) (lf_maps s) (lf_count s) (lf_hard s)
    (put (2 ^ m) (gright prec emax W m lm x1 (seg (2 ^ S m) (2 ^ S m) (lf_soft s))) (lf_soft s)) (lf_parity s) (lf_left s)).
Proof.
  intros H Hh Ex. unfold gright. rewrite <- Ex. set (Q := mk_ops (list spec_float) (p_one P) (p_signum P) (p_mul P) (p_prod P) (fun h a b => p_madd P h (fv_shuf a lm) (fv_shuf b lm))).
  pose proof (right_ok Q [] m hoff (mk_ps [] 0 (lf_hard s) (lf_soft s)) H Hh) as E. unfold polar_right in E. cbn [ps_soft ps_msg ps_pos ps_hard p_madd Q] in E.
  unfold list_rightf. destruct (for_up _ _ _ _) as [soft| | |]; cbn [bind] in E; try discriminate.
  apply (f_equal (fun r => match r with Ok t => ps_soft t | _ => [] end)) in E. cbn [ps_soft] in E. rewrite E. reflexivity.
Qed.
Lemma list_joinf_ok m hoff lm rm s : hoff + 2 ^ S m <= length (lf_hard s) ->
  list_joinf prec emax W (2 ^ S m) hoff lm rm s = Ok (vshuf lm rm, mk_lsf (lf_metric s) (lf_msg s) (lf_maps s) (lf_count s)
    (put hoff (zip2 (fun x y => p_mul P (fv_shuf x rm) y) (seg hoff (2 ^ m) (lf_hard s)) (seg (hoff + 2 ^ m) (2 ^ m) (lf_hard s))) (lf_hard s)) (lf_soft s) (lf_parity s) (lf_left s)).
Proof.
  intros Hh. set (Q := mk_ops (list spec_float) (p_one P) (p_signum P) (fun x y => p_mul P (fv_shuf x rm) y) (p_prod P) (p_madd P)).
  pose proof (join_ok Q [] m hoff (mk_ps [] 0 (lf_hard s) (lf_soft s)) Hh) as E. unfold polar_join in E. cbn [ps_soft ps_msg ps_pos ps_hard p_mul Q] in E.
  unfold list_joinf. destruct (for_up _ _ _ _) as [hard| | |]; cbn [bind] in E; try discriminate.
  apply (f_equal (fun r => match r with Ok t => ps_hard t | _ => [] end)) in E. cbn [ps_hard] in E. rewrite E. reflexivity.
Qed.
Lemma zip2_emb rm x1 x2 : is_map rm -> Forall Iv x1 -> Forall Iv x2 ->
  zip2 (fun x y => p_mul P (fv_shuf x rm) y) (embm x1) (embm x2) = embm (zip2 (fun x y => zmulv (vshuf x rm) y) x1 x2).
Proof.
  intros Hr F1. revert x2. induction F1 as [|u x1 Hu F1 IH]; intros [|v x2] F2; [reflexivity..|]. inversion F2; subst. cbn [map zip2].
  rewrite shuf_emb. rewrite (mul_emb_v prec emax ub W Hp He HW); [|apply (lanes_vshuf W); assumption|apply H1]. f_equal. apply IH. assumption.
Qed.

Lemma node_fgoodf m hoff fl f g F G : length fl = 2 ^ S m ->
  ggood m (firstn (2 ^ m) fl) F -> ggood m (skipn (2 ^ m) fl) G ->
  fgoodf m hoff (firstn (2 ^ m) fl) f F -> fgoodf m (hoff + 2 ^ m) (skipn (2 ^ m) fl) g G ->
  fgoodf (S m) hoff fl (fun s => s <- list_leftf prec emax W (2 ^ S m) s ;; '(lmap, s) <- f s ;; s <- list_rightf prec emax W (2 ^ S m) hoff lmap s ;; '(rmap, s) <- g s ;; list_joinf prec emax W (2 ^ S m) hoff lmap rmap s)
    (gjoin prec emax W F G m).
Proof.
  intros Lfl GF GG HF HG s a Ha Hr Hs Hh Fs Hm Hm2. pose proof (pow2_pos m) as Hpw.
  rewrite <- (firstn_skipn (2 ^ m) fl) in Hm, Hm2. rewrite groles_app, payload_app in Hm, Hm2.
  set (sl := seg (2 ^ S m) (2 ^ S m) (lf_soft s)) in *. assert (length sl = 2 ^ S m) as Ls by (apply length_seg; lia).
  unfold gjoin. destruct (gleft_wf prec emax ub W Hp He HW next next_ok SI MI SIl SIr MIs m sl Ls Fs) as (L1 & F1).
  rewrite list_leftf_ok by exact Hs. fold sl. cbn [bind]. set (s1 := mk_lsf _ _ _ _ _ _ _ _).
  assert (length (lf_soft s1) = length (lf_soft s)) as Ls1 by (cbn [lf_soft s1]; rewrite length_put; cbn [Nat.pow] in *; lia).
  assert (seg (2 ^ m) (2 ^ m) (lf_soft s1) = fleft P m sl) as E1 by (cbn [lf_soft s1]; rewrite <- L1 at 2; apply seg_put; cbn [Nat.pow] in *; lia).
  specialize (GF a _ Ha L1 F1). specialize (HF s1 a). rewrite E1 in HF.
  destruct (F a (fleft P m sl)) as [[lm x1] a1]. destruct GF as (M1 & X1 & V1 & A1 & H1 & C1).
  destruct HF as (s2 & E2 & R2 & K2 & Ls2 & S2); [exact Ha|exact Hr|cbn [Nat.pow] in *; lia|cbn [lf_hard s1 Nat.pow] in *; lia|exact F1|lia|lia|].
  rewrite E2. cbn [bind]. cbn [lf_hard s1] in K2.
  assert (length (embm x1) = 2 ^ m) as X1' by (rewrite map_length; exact X1).
  assert (length (lf_hard s2) = length (lf_hard s)) as Lh2 by (rewrite K2; apply length_put; cbn [Nat.pow] in *; lia).
  destruct (gright_wf prec emax ub W HW next next_ok SI MI SIl SIr MIs m lm x1 sl Ls Fs M1 X1 V1) as (L2 & F2).
  assert (forall o, 2 ^ S m <= o -> skipn o (lf_soft s2) = skipn o (lf_soft s)) as Q2.
  { intros o Ho. transitivity (skipn o (lf_soft s1)); [apply (skipn_le (2 ^ m)); [cbn [Nat.pow] in Ho; lia|exact S2]|].
    cbn [lf_soft s1]. apply skipn_put; cbn [Nat.pow] in *; lia. }
  assert (seg hoff (2 ^ m) (lf_hard s2) = embm x1) as E3 by (rewrite K2; rewrite <- X1' at 1; apply seg_put; cbn [Nat.pow] in *; lia).
  rewrite (list_rightf_ok m hoff lm x1) by (rewrite ?Lh2; exact E3 || (cbn [Nat.pow] in *; lia)). cbn [bind].
  assert (seg (2 ^ S m) (2 ^ S m) (lf_soft s2) = sl) as E4 by (apply skipn_seg, Q2; lia).
  rewrite E4. set (s3 := mk_lsf _ _ _ _ _ _ _ _).
  assert (length (lf_soft s3) = length (lf_soft s)) as Ls3 by (cbn [lf_soft s3]; rewrite length_put; cbn [Nat.pow] in *; lia).
  assert (seg (2 ^ m) (2 ^ m) (lf_soft s3) = gright prec emax W m lm x1 sl) as E5 by (cbn [lf_soft s3]; rewrite <- L2 at 2; apply seg_put; cbn [Nat.pow] in *; lia).
  specialize (GG a1 _ A1 L2 F2). specialize (HG s3 a1). rewrite E5 in HG.
  destruct (G a1 (gright prec emax W m lm x1 sl)) as [[rm x2] a2]. destruct GG as (M2 & X2 & V2 & A2 & H2 & C2).
  destruct HG as (s4 & E6 & R4 & K4 & Ls4 & S4); [exact A1|exact R2|cbn [Nat.pow] in *; lia|cbn [lf_hard s3]; rewrite Lh2; cbn [Nat.pow] in *; lia|exact F2|rewrite C1; lia|rewrite C1; lia|].
  rewrite E6. cbn [bind]. cbn [lf_hard s3] in K4.
  assert (length (embm x2) = 2 ^ m) as X2' by (rewrite map_length; exact X2).
  assert (length (lf_hard s4) = length (lf_hard s)) as Lh4 by (rewrite K4, length_put; cbn [Nat.pow] in *; lia).
  rewrite list_joinf_ok by (rewrite Lh4; exact Hh). eexists. split; [reflexivity|]. split; [exact R4|]. cbn [lf_hard lf_soft]. split; [|split].
  - rewrite K4, K2. rewrite (put_join _ [] hoff (2 ^ m) (embm x1) (embm x2)) by (cbn [Nat.pow] in *; lia). rewrite zip2_emb by assumption. rewrite map_app. reflexivity.
  - lia.
  - transitivity (skipn (2 ^ S m) (lf_soft s3)); [apply (skipn_le (2 ^ m)); [cbn [Nat.pow]; lia|exact S4]|].
    cbn [lf_soft s3]. rewrite skipn_put by (cbn [Nat.pow] in *; lia). apply Q2. lia.
Qed.

(** ** rate 0 *)
Lemma charge_onef metric v : length metric = W -> length v = W ->
  for_up 0 W (fun k metric => v <- Ok v ;; x <- rd v k ;;
      if SFltb x z0 then (m <- rd metric k ;; wr metric k (SFsub prec emax m x)) else Ok metric) metric = Ok (map (fun k => step 1 (flane k metric) (flane k v)) (seq 0 W)).
Proof.
  intros Hm Hv.
  edestruct (for_up_inv (fun i (f : list spec_float) => length f = W /\ forall k, k < W -> flane k f = if k <? i then step 1 (flane k metric) (flane k v) else flane k metric)
    (fun k metric => v <- Ok v ;; x <- rd v k ;;
      if SFltb x z0 then (m <- rd metric k ;; wr metric k (SFsub prec emax m x)) else Ok metric) 0 W metric) as (f & E & L & I).
  4: { rewrite E. f_equal. apply (list_ext _ _ z0); [rewrite map_length, seq_length; exact L|]. intros k Hk. rewrite nth_map_seq. rewrite L in Hk.
       specialize (I k Hk). unfold flane at 1 in I. rewrite I. replace (k <? W) with true by lia. reflexivity. }
  - lia.
  - intros i f Hi (L & I). cbn [bind].
    rewrite (rd_nth v i z0) by lia. cbn [bind]. fold (flane i v). specialize (I i ltac:(lia)) as Ii. replace (i <? i) with false in Ii by lia.
    destruct (SFltb (flane i v) z0) eqn:C.
    + rewrite (rd_nth f i z0) by lia. cbn [bind]. fold (flane i f). rewrite Ii. rewrite wr_Ok by lia. eexists. split; [reflexivity|]. rewrite length_upd. split; [exact L|].
      intros k Hk. unfold flane at 1. destruct (Nat.eq_dec k i) as [->|Hne].
      * rewrite nth_upd_eq by lia. replace (i <? S i) with true by lia. unfold step_metric. rewrite C. reflexivity.
      * rewrite nth_upd_neq by lia. fold (flane k f). rewrite I by exact Hk. replace (k <? S i) with (k <? i) by lia. reflexivity.
    + eexists. split; [reflexivity|]. split; [exact L|]. intros k Hk. destruct (Nat.eq_dec k i) as [->|Hne].
      * rewrite Ii. replace (i <? S i) with true by lia. unfold step_metric. rewrite C. reflexivity.
      * rewrite I by exact Hk. replace (k <? S i) with (k <? i) by lia. reflexivity.
  - split; [apply Hm|]. intros k Hk. reflexivity.
Qed.
Lemma rate0_fgoodf n hoff fl : length fl = 2 ^ n -> forallb (fun b => b) fl = true -> fgoodf n hoff fl (list_rate0f prec emax ub W n hoff) (gr0 n).
Proof.
  intros Lfl Af s a Ha Hr Hs Hh Fs Hm Hm2. unfold Proof_plf2.gr0. unfold list_rate0f.
  rewrite (fill_ok (2 ^ n) hoff (fun _ => p_one P)); [|exact Hh|intros; reflexivity]. cbn [bind]. rewrite map_const_seq.
  set (sl := seg (2 ^ n) (2 ^ n) (lf_soft s)) in *. assert (length sl = 2 ^ n) as Ls by (apply length_seg; lia).
  destruct Hr as (R1 & R2 & R3 & R4 & R5). destruct Ha as (A1 & A2). rewrite R1. change (fzero prec emax) with z0.
  edestruct (for_up_inv (fun i (f : list spec_float) => f = gcharged (g_metric a) (firstn i sl))
    (fun i metric => for_up 0 W (fun k metric => v <- rd (lf_soft s) (i + 2 ^ n) ;; x <- rd v k ;;
      if SFltb x z0 then (m <- rd metric k ;; wr metric k (SFsub prec emax m x)) else Ok metric) metric) 0 (2 ^ n) (g_metric a)) as (f & E & I).
  4: { rewrite E. cbn [bind]. rewrite (iotaf_ok ub W HW HU). cbn [bind]. eexists. split; [reflexivity|]. rewrite I. rewrite firstn_all2 by lia.
       split; [|split; [|split; reflexivity]].
       - split; [reflexivity|]. split; [exact R2|]. split; [exact R3|]. split; [exact R4|exact R5].
       - cbn [lf_hard]. rewrite map_repeat'. rewrite (one_is prec emax ub W Hp He HW). reflexivity. }
  - lia.
  - intros i f Hi ->. assert (rd (lf_soft s) (i + 2 ^ n) = Ok (nth i sl [])) as Er.
    { rewrite (rd_nth _ _ []) by lia. unfold sl. rewrite nth_seg by lia. do 2 f_equal. lia. }
    unfold for_up. rewrite (loop_ext _ (fun k metric => v <- Ok (nth i sl []) ;; x <- rd v k ;;
      if SFltb x z0 then (m <- rd metric k ;; wr metric k (SFsub prec emax m x)) else Ok metric)) by (intros; rewrite Er; reflexivity).
    pose proof (charge_onef (gcharged (g_metric a) (firstn i sl)) (nth i sl []) (length_gcharged _ _ _ _ _)) as C1. unfold for_up in C1. rewrite C1.
    + eexists. split; [reflexivity|]. unfold Proof_plf2.gcharged at 2. rewrite (firstn_S_nth sl i []) by lia. apply map_ext_in. intros k Hk. apply in_seq in Hk.
      rewrite (flane_gcharged prec emax ub W HW next next_ok SI MI SIl SIr MIs) by lia. unfold lane_off. rewrite map_app. cbn [map]. unfold block_metric. rewrite fold_left_app. reflexivity.
    + rewrite Forall_forall in Fs. apply (Fs (nth i sl [])). apply nth_In. lia.
  - unfold Proof_plf2.gcharged. cbn [firstn]. unfold lane_off. cbn [map]. unfold block_metric. cbn [fold_left]. symmetry. apply (list_ext _ _ z0); [rewrite map_length, seq_length; symmetry; apply A1|].
    intros k Hk. rewrite map_length, seq_length in Hk. rewrite nth_map_seq. replace (k <? W) with true by lia. reflexivity.
Qed.

(** ** The trees *)
Section Tree.
Variable rate1 : nat -> list_statef -> res (list Z * list_statef).
Hypothesis rate1_good : forall hoff, fgoodf 0 hoff [false] (rate1 hoff) gleaf.
Lemma FG n fl : length fl = 2 ^ n -> ggood n fl (gchild n fl (gnode n fl)).
Proof. apply (gchild_good prec emax ub W Hp He HW next next_ok SI MI SIl SIr MIs MIm). Qed.
Lemma fchild_good m hoff f t : m <= 5 -> (f < 2 ^ N.of_nat (2 ^ m))%N -> fgoodf m hoff (nbits m f) t (gnode m (nbits m f)) ->
  fgoodf m hoff (nbits m f) (fun s => if (f =? N.shiftl 1 (N.of_nat (2 ^ m)) - 1)%N then list_rate0f prec emax ub W m hoff s else t s)
    (gchild m (nbits m f) (gnode m (nbits m f))).
Proof.
  intros Hm Hf Ht. unfold Proof_plf2.gchild. replace (m <=? 5) with true by lia. cbn [andb]. pose proof (nbits_all m f Hf) as E. rewrite E.
  destruct (f =? N.shiftl 1 (N.of_nat (2 ^ m)) - 1)%N; [apply rate0_fgoodf; [apply length_nbits|exact E]|exact Ht].
Qed.
Lemma fleaf_good hoff f : (f < 2)%N -> fgoodf 0 hoff (nbits 0 f) (fun s => if (f =? 0)%N then rate1 hoff s else list_rate0f prec emax ub W 0 hoff s) (gchild 0 (nbits 0 f) (gnode 0 (nbits 0 f))).
Proof.
  intros Hf. assert (f = 0 \/ f = 1)%N as [-> | ->] by lia; [apply rate1_good|apply (rate0_fgoodf 0); reflexivity].
Qed.
Lemma fsmall_good M : forall hoff f, 1 <= M <= 5 -> (f < 2 ^ N.of_nat (2 ^ M))%N -> fgoodf M hoff (nbits M f) (list_tree_smallf prec emax ub W rate1 M hoff f) (gnode M (nbits M f)).
Proof.
  induction M as [|m IH]; intros hoff f HM Hf; [lia|]. destruct m as [|m].
  - cbn [list_tree_smallf]. 
    assert (gnode 1 (nbits 1 f) = gjoin prec emax W (gchild 0 (firstn (2 ^ 0) (nbits 1 f)) (gnode 0 (firstn (2 ^ 0) (nbits 1 f))))
      (gchild 0 (skipn (2 ^ 0) (nbits 1 f)) (gnode 0 (skipn (2 ^ 0) (nbits 1 f)))) 0) as -> by reflexivity.
    apply (node_fgoodf 0 hoff (nbits 1 f) (fun s => if (N.land f 1 =? 0)%N then rate1 hoff s else list_rate0f prec emax ub W 0 hoff s)
       (fun s => if (N.shiftr f 1 =? 0)%N then rate1 (hoff + 1) s else list_rate0f prec emax ub W 0 (hoff + 1) s)); rewrite ?nbits_low, ?nbits_high;
      [apply length_nbits|apply FG, length_nbits..| |]; change (N.shiftl 1 (N.of_nat (2 ^ 0)) - 1)%N with 1%N; change (N.of_nat (2 ^ 0)) with 1%N.
    + apply fleaf_good. apply (low_lt f 0).
    + apply fleaf_good. apply (high_lt f 0). exact Hf.
  - cbn [list_tree_smallf]. set (n := S m) in *.
    assert (gnode (S n) (nbits (S n) f) = gjoin prec emax W (gchild n (firstn (2 ^ n) (nbits (S n) f)) (gnode n (firstn (2 ^ n) (nbits (S n) f))))
      (gchild n (skipn (2 ^ n) (nbits (S n) f)) (gnode n (skipn (2 ^ n) (nbits (S n) f)))) n) as -> by reflexivity.
    set (g := 2 ^ n). rewrite half_pow. unfold g.
    eapply fgoodf_ext; [apply (node_fgoodf n hoff (nbits (S n) f)); rewrite ?nbits_low, ?nbits_high; [apply length_nbits|apply FG, length_nbits..| |]|].
    + apply fchild_good; [lia|apply low_lt|]. apply IH; [lia|apply low_lt].
    + apply fchild_good; [lia|apply high_lt; exact Hf|]. apply IH; [lia|apply high_lt; exact Hf].
    + intros s. reflexivity.
Qed.
Lemma ftree6_good hoff frozen fo : uint32 frozen -> fo + 2 <= length frozen -> fgoodf 6 hoff (lflags frozen fo 6) (list_tree6f prec emax ub W rate1 hoff frozen fo) (gnode 6 (lflags frozen fo 6)).
Proof.
  intros Hu Hf.
  assert (gnode 6 (lflags frozen fo 6) = gjoin prec emax W (gchild 5 (firstn (2 ^ 5) (lflags frozen fo 6)) (gnode 5 (firstn (2 ^ 5) (lflags frozen fo 6))))
      (gchild 5 (skipn (2 ^ 5) (lflags frozen fo 6)) (gnode 5 (skipn (2 ^ 5) (lflags frozen fo 6)))) 5) as -> by reflexivity.
  eapply fgoodf_ext; [apply (node_fgoodf 5 hoff (lflags frozen fo 6)); rewrite ?lflags_low, ?(lflags_high _ _ _ 1) by reflexivity; rewrite ?lflags_word; [apply length_lflags|apply FG, length_nbits..| |]|].
  - apply fchild_good; [lia|apply uint32_nth; exact Hu|]. apply fsmall_good; [lia|apply uint32_nth; exact Hu].
  - apply fchild_good; [lia|apply uint32_nth; exact Hu|]. apply fsmall_good; [lia|apply uint32_nth; exact Hu].
  - intros s. unfold list_tree6f. rewrite (rd_nth frozen (fo + 0) 0%N), (rd_nth frozen (fo + 1) 0%N) by lia. rewrite Nat.add_0_r. reflexivity.
Qed.
Lemma ftree_good dd : forall hoff frozen fo, uint32 frozen -> fo + 2 * 2 ^ dd <= length frozen ->
  fgoodf (dd + 6) hoff (lflags frozen fo (dd + 6)) (list_treef prec emax ub W rate1 dd hoff frozen fo) (gnode (dd + 6) (lflags frozen fo (dd + 6))).
Proof.
  induction dd as [|dd IH]; intros hoff frozen fo Hu Hf; [apply ftree6_good; [exact Hu|cbn in Hf; lia]|].
  assert (2 ^ (dd + 6) = 32 * (2 * 2 ^ dd)) as E by (rewrite Nat.pow_add_r; change (2 ^ 6) with 64; lia).
  cbn [list_treef]. change (S dd + 6) with (S (dd + 6)). set (n := dd + 6) in *.
  assert (gnode (S n) (lflags frozen fo (S n)) = gjoin prec emax W (gchild n (firstn (2 ^ n) (lflags frozen fo (S n))) (gnode n (firstn (2 ^ n) (lflags frozen fo (S n)))))
      (gchild n (skipn (2 ^ n) (lflags frozen fo (S n))) (gnode n (skipn (2 ^ n) (lflags frozen fo (S n))))) n) as -> by reflexivity.
  rewrite half_pow. assert (2 ^ n / 32 = 2 * 2 ^ dd) as -> by (rewrite E, Nat.mul_comm; apply Nat.div_mul; lia).
  cbn [Nat.pow] in Hf.
  apply (node_fgoodf n hoff (lflags frozen fo (S n))); rewrite ?lflags_low, ?(lflags_high _ _ _ (2 * 2 ^ dd)) by exact E; [apply length_lflags|apply FG, length_lflags..| |];
    unfold Proof_plf2.gchild; replace (n <=? 5) with false by (unfold n; lia); cbn [andb]; apply IH; (exact Hu || lia).
Qed.
End Tree.
End Decoder.
