(** Lemmas about the multiply-accumulate of Model_crs: scalar and SIMD versions. *)
From Coq Require Import ZifyBool ZifyNat ZifyN.
From Verif Require Import Cpp Lib_list Model_gf Model_perm Model_crs Spec_gf Lib_gf2lin Lib_gf2poly Lib_gf Proof_bits Proof_gf.
Local Open Scope N_scope.

(** [out] is [c] with [len] elements from [coff] on combined by [h] with those of [a] from [aoff] on *)
Definition mac_rel (h : N -> N -> N) (c : list N) (coff : nat) (a : list N) (aoff : nat) (len : nat) (out : list N) : Prop :=
  length out = length c /\
  forall p, nth p out 0 = if ((coff <=? p) && (p <? coff + len))%nat then h (nth (aoff + (p - coff)) a 0) (nth p c 0) else nth p c 0.
Lemma mac_rel_unique h c coff a aoff len o o' : mac_rel h c coff a aoff len o -> mac_rel h c coff a aoff len o' -> o = o'.
Proof.
  intros (L & H) (L' & H'). apply (list_ext _ _ 0); [congruence|]. intros i _. rewrite H, H'. reflexivity.
Qed.
Lemma mac_rel_nil h c coff a aoff : mac_rel h c coff a aoff 0 c.
Proof. split; [reflexivity|]. intros p. rewrite Nat.add_0_r. destruct (Nat.leb_spec coff p), (Nat.ltb_spec p coff); cbn; try reflexivity. lia. Qed.
(** a block of [n] more elements *)
Lemma mac_rel_step h c coff a aoff i n o o' : mac_rel h c coff a aoff i o ->
  length o' = length o ->
  (forall p, nth p o' 0 = if ((coff + i <=? p) && (p <? coff + i + n))%nat then h (nth (aoff + i + (p - (coff + i))) a 0) (nth p o 0) else nth p o 0) ->
  mac_rel h c coff a aoff (i + n) o'.
Proof.
  intros (L & H) L' H'. split; [congruence|]. intros p. rewrite H', H.
  destruct (Nat.leb_spec (coff + i) p), (Nat.ltb_spec p (coff + i + n)), (Nat.leb_spec coff p), (Nat.ltb_spec p (coff + i)), (Nat.ltb_spec p (coff + (i + n)));
    cbn; try reflexivity; try lia. f_equal. f_equal. lia.
Qed.

Section S.
Variable G : gf.
Hypothesis OK : gf_ok G.
Notation Q := (2 ^ gf_M G).
Notation Q1 := (2 ^ gf_M G - 1).
Notation gp := (gpow (gf_M G) (gf_POLY G)).
Notation gm := (gmul (gf_M G) (gf_POLY G)).
Let HM := ok_M G OK.
Let HP := ok_P G OK.

Definition mach (b : N) (init : bool) (x y : N) : N := if init then gm (gp b) x else N.lxor (gm (gp b) x) y.
Definition small (l : list N) : Prop := Forall (fun x => x < Q) l.
Lemma small_nth l i : small l -> nth i l 0 < Q.
Proof.
  intros H. destruct (Nat.lt_ge_cases i (length l)) as [L|L]; [apply Forall_nth; assumption|]. rewrite nth_overflow by exact L.
  apply N.neq_0_lt_0, N.pow_nonzero. discriminate.
Qed.
Lemma small_of_nth l : (forall i, nth i l 0 < Q) -> small l.
Proof. intros H. apply Forall_nth. intros i d Hi. rewrite (nth_indep _ d 0) by exact Hi. apply H. Qed.
Lemma mach_lt b init x y : x < Q -> y < Q -> mach b init x y < Q.
Proof. intros Hx Hy. unfold mach. destruct init; [apply gmul_lt; assumption|]. apply lxor_lt; [apply gmul_lt; assumption|assumption]. Qed.
Lemma mac_rel_small b init c coff a aoff len o : small c -> small a -> mac_rel (mach b init) c coff a aoff len o -> small o.
Proof.
  intros Hc Ha (_ & H). apply small_of_nth. intros i. rewrite H.
  destruct (_ && _)%bool; [apply mach_lt; apply small_nth; assumption|apply small_nth; assumption].
Qed.

Lemma mac_scalar_ok c coff a aoff b len init : small a -> small c -> b < Q1 ->
  (coff + len <= length c)%nat -> (aoff + len <= length a)%nat ->
  exists o, mac_scalar G c coff a aoff b len init = Ok o /\ mac_rel (mach b init) c coff a aoff len o.
Proof.
  intros Ha Hc Hb Lc La. unfold mac_scalar.
  edestruct (for_up_inv (fun i s => mac_rel (mach b init) c coff a aoff i s)) as (o & E & I).
  4: { exists o. split; [exact E|exact I]. }
  - lia.
  - intros i s Hi I. pose proof (mac_rel_small _ _ _ _ _ _ _ _ Hc Ha I) as Hs. cbv beta. rewrite (rd_nth a _ 0) by lia. cbn [bind].
    assert (E : (if init then iv_mul G b (nth (aoff + i) a 0) else y <- rd s (coff + i) ;; fma_ivv G b (nth (aoff + i) a 0) y) =
                Ok (mach b init (nth (aoff + i) a 0) (nth (coff + i) s 0))).
    { destruct init; unfold mach.
      - apply iv_mul_ok; [assumption|assumption|apply small_nth; assumption].
      - rewrite (rd_nth s _ 0) by (destruct I; lia). cbn [bind]. apply fma_ivv_ok; try assumption; apply small_nth; assumption. }
    rewrite E. cbn [bind]. rewrite wr_Ok by (destruct I; lia). eexists. split; [reflexivity|].
    replace (S i) with (i + 1)%nat by lia. apply (mac_rel_step _ _ _ _ _ i 1 s); [exact I|apply length_upd|].
    intros p. rewrite nth_upd. destruct I as (L & _).
    destruct (Nat.eqb_spec (coff + i) p) as [<-|Hn], (Nat.ltb_spec (coff + i) (length s)); try lia; cbn [andb].
    + destruct (Nat.leb_spec (coff + i) (coff + i)), (Nat.ltb_spec (coff + i) (coff + i + 1)); try lia; cbn [andb]. f_equal. f_equal. lia.
    + destruct (Nat.leb_spec (coff + i) p), (Nat.ltb_spec p (coff + i + 1)); cbn [andb]; try reflexivity. lia.
  - apply mac_rel_nil.
Qed.

(** ** vector loads, stores, lookups *)
Lemma vload_ok a off n : (off + n <= length a)%nat -> vload a off n = Ok (firstn n (skipn off a)).
Proof. intros H. unfold vload, require. destruct (Nat.leb_spec (off + n) (length a)); [reflexivity|lia]. Qed.
Lemma vload_length (a : list N) off n : (off + n <= length a)%nat -> length (firstn n (skipn off a)) = n.
Proof. intros H. rewrite firstn_length, skipn_length. lia. Qed.

Lemma nth_vstore c off v : (off + length v <= length c)%nat ->
  forall p, nth p (firstn off c ++ v ++ skipn (off + length v) c) 0 = if ((off <=? p) && (p <? off + length v))%nat then nth (p - off) v 0 else nth p c 0.
Proof.
  intros H p. destruct (Nat.leb_spec off p) as [Hp|Hp].
  - rewrite app_nth2 by (rewrite firstn_length; lia). rewrite firstn_length, Nat.min_l by lia. destruct (Nat.ltb_spec p (off + length v)) as [Hq|Hq]; cbn [andb].
    + rewrite app_nth1 by lia. reflexivity.
    + rewrite app_nth2 by lia. rewrite nth_skipn'. f_equal. lia.
  - cbn [andb]. rewrite app_nth1 by (rewrite firstn_length; lia). rewrite nth_firstn'. destruct (Nat.ltb_spec p off); [reflexivity|lia].
Qed.
Lemma length_vstore (c : list N) off v : (off + length v <= length c)%nat -> length (firstn off c ++ v ++ skipn (off + length v) c) = length c.
Proof. intros H. rewrite !app_length, firstn_length, skipn_length. lia. Qed.
Lemma vstore_ok c off v : (off + length v <= length c)%nat -> vstore c off v = Ok (firstn off c ++ v ++ skipn (off + length v) c).
Proof. intros H. unfold vstore, require. destruct (Nat.leb_spec (off + length v) (length c)); [reflexivity|lia]. Qed.

Lemma map2_map {A} (f : N -> N -> N) (g h : A -> N) l : map2 f (map g l) (map h l) = map (fun x => f (g x) (h x)) l.
Proof. unfold map2. induction l as [|x l IH]; [reflexivity|]. cbn. f_equal. exact IH. Qed.
Lemma nth_map2 f a b i : length a = length b -> (i < length a)%nat -> nth i (map2 f a b) 0 = f (nth i a 0) (nth i b 0).
Proof.
  unfold map2. revert b i. induction a as [|x a IH]; intros [|y b] i H Hi; cbn in *; try lia; try discriminate.
  destruct i as [|i]; [reflexivity|]. apply IH; lia.
Qed.
Lemma length_map2 f a b : length a = length b -> length (map2 f a b) = length a.
Proof. unfold map2. intros H. rewrite map_length, combine_length. lia. Qed.

Definition nib (l : list N) : Prop := Forall (fun x => x < 16) l.
Lemma lookup_ok B lut idx : length lut = 16%nat -> nib idx -> length idx = vwidth B -> vlookup B lut idx = map (fun k => nth (N.to_nat k) lut 0) idx.
Proof.
  intros HL HN HW.
  assert (SH : forall l, nib l -> shuffle_epi8 lut l = map (fun k => nth (N.to_nat k) lut 0) l).
  { intros l Hl. apply map_ext_Forall. eapply Forall_impl; [|exact Hl]. intros k Hk. cbv beta in Hk.
    replace (N.testbit k 7) with false by (symmetry; apply (testbit_high 4); [exact Hk|lia]). rewrite N.mod_small by exact Hk. reflexivity. }
  destruct B; cbn [vlookup].
  - apply map_ext_Forall. eapply Forall_impl; [|exact HN]. intros k Hk. cbv beta in Hk. apply N.ltb_lt in Hk. rewrite Hk. reflexivity.
  - unfold crs_vqtbl1q, vtbl2. rewrite <- map_app, !firstn_skipn. apply map_ext_Forall. eapply Forall_impl; [|exact HN]. intros k Hk. cbv beta in Hk. apply N.ltb_lt in Hk. rewrite Hk. reflexivity.
  - apply SH, HN.
  - unfold shuffle256_epi8. rewrite firstn_app, skipn_app, HL, (firstn_all2 lut) by lia. rewrite (skipn_all2 lut) by lia. cbn [Nat.sub firstn skipn app]. rewrite app_nil_r.
    rewrite !SH.
    + rewrite <- map_app. change (map (fun k : N => nth (N.to_nat k) lut 0) (firstn 16 idx ++ skipn 16 idx) = map (fun k : N => nth (N.to_nat k) lut 0) idx). rewrite firstn_skipn. reflexivity.
    + apply Forall_forall. intros y Hy. rewrite <- (firstn_skipn 16 idx) in HN. apply Forall_app in HN. destruct HN as (_ & HN). rewrite Forall_forall in HN. auto.
    + apply Forall_forall. intros y Hy. rewrite <- (firstn_skipn 16 idx) in HN. apply Forall_app in HN. destruct HN as (HN & _). rewrite Forall_forall in HN. auto.
Qed.
Lemma nib_low a : nib (vlow a).
Proof.
  apply Forall_forall. intros y Hy. apply in_map_iff in Hy. destruct Hy as (x & <- & _). change 15 with (N.ones 4). rewrite N.land_ones.
  apply N.mod_lt. discriminate.
Qed.
Definition byt (l : list N) : Prop := Forall (fun x => x < 256) l.
Lemma shr4_lt x : x < 256 -> N.shiftr x 4 < 16.
Proof. intros H. rewrite N.shiftr_div_pow2. apply N.div_lt_upper_bound; [discriminate|exact H]. Qed.
Lemma pair_ind' (P : list N -> Prop) : P [] -> (forall x y l, P l -> P (x :: y :: l)) -> forall l, Nat.even (length l) = true -> P l.
Proof.
  intros H0 H2. fix IH 1. intros [|x [|y l]] E; [exact H0|discriminate|]. apply H2. apply IH. exact E.
Qed.
Lemma tb15 n : N.testbit 15 n = (n <? 4).
Proof. change 15 with (N.ones 4). apply eq_true_iff_eq. rewrite N.ones_spec_iff, N.ltb_lt. reflexivity. Qed.
Lemma tb255 n : N.testbit 255 n = (n <? 8).
Proof. change 255 with (N.ones 8). apply eq_true_iff_eq. rewrite N.ones_spec_iff, N.ltb_lt. reflexivity. Qed.
Lemma high_pair x y : x < 256 -> y < 256 ->
  N.land (wrap 8 (N.shiftr (N.lor x (N.shiftl y 8)) 4)) 15 = N.shiftr x 4 /\
  N.land (wrap 8 (N.shiftr (N.shiftr (N.lor x (N.shiftl y 8)) 4) 8)) 15 = N.shiftr y 4.
Proof.
  intros Hx Hy. split; apply N.bits_inj; intros n; tbits; rewrite tb15.
  - destruct (N.ltb_spec n 4), (N.ltb_spec n 8), (N.leb_spec 8 (n + 4)); try lia; rewrite ?andb_true_r, ?andb_false_r, ?andb_false_l, ?andb_true_l, ?orb_false_r; try reflexivity.
    all: symmetry; apply (testbit_high 8); [exact Hx|lia].
  - destruct (N.ltb_spec n 4), (N.ltb_spec n 8), (N.leb_spec 8 (n + 8 + 4)); try lia; rewrite ?andb_true_r, ?andb_false_r, ?andb_false_l, ?andb_true_l, ?orb_false_r; try reflexivity.
    + rewrite (testbit_high 8 x) by (try exact Hx; lia). rewrite orb_false_l. f_equal. lia.
    + symmetry; apply (testbit_high 8); [exact Hy|lia].
    + symmetry; apply (testbit_high 8); [exact Hy|lia].
Qed.
Lemma vhigh_ok B a : byt a -> Nat.even (length a) = true -> vhigh B a = map (fun x => N.shiftr x 4) a.
Proof.
  intros HB HE. assert (H : vand (bytes_of (vshr (words_of a) 4)) 15 = map (fun x => N.shiftr x 4) a).
  { revert HB. pattern a. apply pair_ind'; [reflexivity| |exact HE]. intros x y l IH HB. inversion HB as [|? ? Hx HB']; subst. inversion HB' as [|? ? Hy HB'']; subst.
    unfold vand, vshr in *. cbn [words_of map bytes_of]. destruct (high_pair x y Hx Hy) as (E1 & E2). rewrite E1, E2, IH by exact HB''. reflexivity. }
  destruct B; [reflexivity|reflexivity|exact H|exact H].
Qed.

(** the nibble tables *)
Lemma mac_table_ok b s : b < Q1 -> 2 ^ (4 + s) <= Q ->
  exists t, mac_table G b s = Ok t /\ length t = 16%nat /\ forall k, k < 16 -> nth (N.to_nat k) t 0 = gm (gp b) (N.shiftl k s).
Proof.
  intros Hb Hs. pose proof (ok_w G OK) as HW. assert (HQW : Q <= 2 ^ gf_w G) by (apply N.pow_le_mono_r; [discriminate|exact HW]).
  unfold mac_table.
  edestruct (for_up_inv (fun i (t : list (option N)) => length t = 16%nat /\ forall k, (k < i)%nat -> nth k t None = Some (gm (gp b) (N.shiftl (N.of_nat k) s)))) as (t & E & LT & HT).
  4: { change (bind (A := list (option N))) with (@bind (list (option N)) (list N)). rewrite E. cbn [bind].
    edestruct (for_up_inv (fun i (l : list N) => length l = i /\ forall k, (k < i)%nat -> nth k l 0 = gm (gp b) (N.shiftl (N.of_nat k) s))) as (l & El & LL & HL).
    4: { exists l. split; [exact El|]. split; [exact LL|]. intros k Hk. rewrite HL by lia. rewrite N2Nat.id. reflexivity. }
    - lia.
    - intros i l Hi (L & H). cbv beta. rewrite (rdu_nth t i _ (HT i ltac:(lia))). cbn [bind]. eexists. split; [reflexivity|]. split; [rewrite app_length; cbn; lia|].
      intros k Hk. destruct (Nat.eq_dec k i) as [->|].
      + rewrite app_nth2 by lia. rewrite L, Nat.sub_diag. reflexivity.
      + rewrite app_nth1 by lia. apply H. lia.
    - split; [reflexivity|]. intros; lia. }
  - lia.
  - intros i t Hi (L & H). cbv beta.
    assert (HB : N.shiftl (N.of_nat i) s < Q).
    { rewrite N.shiftl_mul_pow2. apply N.lt_le_trans with (2 ^ (4 + s)); [|exact Hs]. rewrite N.pow_add_r. change (2 ^ 4) with 16.
      apply N.mul_lt_mono_pos_r; [|lia]. apply N.neq_0_lt_0, N.pow_nonzero. discriminate. }
    rewrite wrap_small by lia. rewrite mkV_ok by assumption. cbn [bind]. rewrite iv_mul_ok by assumption. cbn [bind]. unfold wru. rewrite wr_Ok by lia.
    eexists. split; [reflexivity|]. split; [rewrite length_upd; exact L|]. intros k Hk. rewrite nth_upd.
    destruct (Nat.eqb_spec i k) as [<-|]; cbn [andb].
    + destruct (Nat.ltb_spec i (length t)); [reflexivity|lia].
    + apply H. lia.
  - split; [apply repeat_length|]. intros; lia.
Qed.
Lemma split8 x : x < 256 -> x = N.lxor (N.land x 15) (N.shiftl (N.shiftr x 4) 4).
Proof.
  intros H. apply N.bits_inj. intros n. tbits. rewrite tb15. destruct (N.ltb_spec n 4), (N.leb_spec 4 n); try lia; rewrite ?andb_true_r, ?andb_false_r, ?xorb_false_r, ?xorb_false_l, ?andb_true_l, ?andb_false_l; try reflexivity.
  f_equal. lia.
Qed.

(** a vector of results stored at [coff + i] is one more block *)
Lemma chunk_rel b init c coff a aoff i n (o : list N) v :
  mac_rel (mach b init) c coff a aoff i o -> length v = n -> (coff + i + n <= length c)%nat ->
  (forall t, (t < n)%nat -> nth t v 0 = mach b init (nth (aoff + i + t) a 0) (nth (coff + i + t) o 0)) ->
  mac_rel (mach b init) c coff a aoff (i + n) (firstn (coff + i) o ++ v ++ skipn (coff + i + length v) o).
Proof.
  intros R LV LC HV. pose proof R as (LO & _).
  apply (mac_rel_step _ _ _ _ _ i n o); [exact R|apply length_vstore; lia|].
  intros p. rewrite nth_vstore by lia. rewrite LV.
  destruct (Nat.leb_spec (coff + i) p) as [H1|H1], (Nat.ltb_spec p (coff + i + n)) as [H2|H2]; cbn [andb]; try reflexivity.
  rewrite HV by lia. f_equal; f_equal; lia.
Qed.

Lemma vwidth_pos B : (0 < vwidth B)%nat. Proof. destruct B; cbn; lia. Qed.
Lemma vwidth_even B : Nat.even (vwidth B) = true. Proof. destruct B; reflexivity. Qed.
Lemma small_slice l o n : small l -> small (firstn n (skipn o l)).
Proof.
  intros H. apply small_of_nth. intros i. rewrite nth_slice. destruct (i <? n)%nat; [apply small_nth; exact H|].
  apply N.neq_0_lt_0, N.pow_nonzero. discriminate.
Qed.
Lemma nth_map_N (f : N -> N) l i : (i < length l)%nat -> nth i (map f l) 0 = f (nth i l 0).
Proof. intros H. rewrite (nth_indep _ 0 (f 0)) by (rewrite map_length; exact H). apply map_nth. Qed.

Lemma mac_simd8_ok B c coff a aoff b cnt init : gf_M G = 8 -> small a -> small c -> b < Q1 ->
  (coff + cnt * vwidth B <= length c)%nat -> (aoff + cnt * vwidth B <= length a)%nat ->
  exists o, mac_simd8 G B c coff a aoff b (cnt * vwidth B) init = Ok o /\ mac_rel (mach b init) c coff a aoff (cnt * vwidth B) o.
Proof.
  intros E8 Ha Hc Hb Lc La. pose proof (vwidth_pos B) as WP. unfold mac_simd8.
  destruct (mac_table_ok b 0 Hb) as (t0 & E0 & L0 & H0); [rewrite E8; discriminate|].
  destruct (mac_table_ok b 4 Hb) as (t4 & E4 & L4 & H4); [rewrite E8; discriminate|].
  rewrite E0, E4. cbn [bind].
  edestruct (for_step_inv (fun k o => mac_rel (mach b init) c coff a aoff (k * vwidth B) o)) as (o & E & I).
  4: { exists o. split; [exact E|exact I]. }
  - exact WP.
  - intros k o Hk I. cbv beta. set (W := vwidth B) in *. assert (HkW : (k * W + W <= cnt * W)%nat) by nia.
    pose proof I as (LO & _). pose proof (mac_rel_small _ _ _ _ _ _ _ _ Hc Ha I) as Ho.
    rewrite vload_ok by lia. cbn [bind]. set (v := firstn W (skipn (aoff + k * W) a)).
    assert (LV : length v = W) by (apply vload_length; lia).
    assert (HV : small v) by (apply small_slice; exact Ha).
    assert (HB : byt v) by (unfold byt; unfold small in HV; rewrite E8 in HV; exact HV).
    rewrite (vhigh_ok B v HB) by (rewrite LV; apply vwidth_even).
    rewrite (lookup_ok B t0); [|assumption|apply nib_low|unfold vlow, vand; rewrite map_length; exact LV].
    rewrite (lookup_ok B t4).
    2: assumption.
    2: { apply Forall_forall. intros y Hy. apply in_map_iff in Hy. destruct Hy as (x & <- & Hx). apply shr4_lt. unfold byt in HB. rewrite Forall_forall in HB. auto. }
    2: { rewrite map_length. exact LV. }
    unfold vlow, vand, vxor. rewrite !map_map, map2_map.
    rewrite (map_ext_Forall _ (fun x => gm (gp b) x)).
    2: { eapply Forall_impl; [|exact HB]. intros x Hx. cbv beta in Hx |- *.
         rewrite H0, H4.
         - rewrite N.shiftl_0_r, <- gmul_lxor_r by assumption. rewrite <- split8 by exact Hx. reflexivity.
         - apply shr4_lt. exact Hx.
         - change 15 with (N.ones 4). rewrite N.land_ones. apply N.mod_lt. discriminate. }
    assert (EV : exists u, (if init then Ok (map (fun x => gm (gp b) x) v) else o0 <- vload o (coff + k * W) W ;; Ok (map2 N.lxor (map (fun x => gm (gp b) x) v) o0)) = Ok u /\
        length u = W /\ forall t, (t < W)%nat -> nth t u 0 = mach b init (nth (aoff + k * W + t) a 0) (nth (coff + k * W + t) o 0)).
    { assert (NV : forall t, (t < W)%nat -> nth t (map (fun x => gm (gp b) x) v) 0 = gm (gp b) (nth (aoff + k * W + t) a 0)).
      { intros t Ht. rewrite nth_map_N by lia. unfold v. rewrite nth_slice. destruct (Nat.ltb_spec t W); [reflexivity|lia]. }
      destruct init.
      - eexists. split; [reflexivity|]. split; [rewrite map_length; exact LV|]. exact NV.
      - rewrite vload_ok by lia. cbn [bind]. eexists. split; [reflexivity|].
        assert (L2 : length (map (fun x => gm (gp b) x) v) = length (firstn W (skipn (coff + k * W) o))) by (rewrite map_length, LV, vload_length; lia).
        split; [rewrite length_map2 by exact L2; rewrite map_length; exact LV|].
        intros t Ht. rewrite nth_map2 by (try exact L2; rewrite map_length; lia). rewrite NV by exact Ht. rewrite nth_slice.
        destruct (Nat.ltb_spec t W); [reflexivity|lia]. }
    destruct EV as (u & Eu & LU & HU). rewrite Eu. cbn [bind]. rewrite vstore_ok by lia. eexists. split; [reflexivity|].
    replace (S k * W)%nat with (k * W + W)%nat by lia. apply chunk_rel; try assumption. lia.
  - apply mac_rel_nil.
Qed.

(** ** 16 bit: the two vectors of an iteration as one list of pairs *)
Definition fl {A} (f g : A -> N) (ps : list A) : list N := flat_map (fun p => [f p; g p]) ps.
Lemma bytes_fl {A} (h : A -> N) ps : bytes_of (map h ps) = fl (fun p => wrap 8 (h p)) (fun p => wrap 8 (N.shiftr (h p) 8)) ps.
Proof. induction ps as [|p ps IH]; [reflexivity|]. cbn [map bytes_of]. rewrite IH. reflexivity. Qed.
Lemma words_fl {A} (f g : A -> N) ps : words_of (fl f g ps) = map (fun p => N.lor (f p) (N.shiftl (g p) 8)) ps.
Proof. induction ps as [|p ps IH]; [reflexivity|]. change (fl f g (p :: ps)) with (f p :: g p :: fl f g ps). cbn [map words_of]. rewrite IH. reflexivity. Qed.
Lemma map_fl {A} (h : N -> N) (f g : A -> N) ps : map h (fl f g ps) = fl (fun p => h (f p)) (fun p => h (g p)) ps.
Proof. induction ps as [|p ps IH]; [reflexivity|]. change (fl f g (p :: ps)) with (f p :: g p :: fl f g ps). cbn [map]. rewrite IH. reflexivity. Qed.
Lemma map2_fl {A} h (f g f' g' : A -> N) ps : map2 h (fl f g ps) (fl f' g' ps) = fl (fun p => h (f p) (f' p)) (fun p => h (g p) (g' p)) ps.
Proof. unfold map2. induction ps as [|p ps IH]; [reflexivity|]. change (fl f g (p :: ps)) with (f p :: g p :: fl f g ps). change (fl f' g' (p :: ps)) with (f' p :: g' p :: fl f' g' ps). cbn [map combine]. rewrite IH. reflexivity. Qed.
Lemma fl_ext {A} (f g f' g' : A -> N) ps : (forall p, In p ps -> f p = f' p /\ g p = g' p) -> fl f g ps = fl f' g' ps.
Proof.
  induction ps as [|p ps IH]; intros H; [reflexivity|]. change (fl f g (p :: ps)) with (f p :: g p :: fl f g ps). change (fl f' g' (p :: ps)) with (f' p :: g' p :: fl f' g' ps).
  destruct (H p (or_introl eq_refl)) as (-> & ->). rewrite IH; [reflexivity|]. intros q Hq. apply H. right. exact Hq.
Qed.
Lemma Forall_fl {A} (P : N -> Prop) (f g : A -> N) ps : (forall p, In p ps -> P (f p) /\ P (g p)) -> Forall P (fl f g ps).
Proof.
  induction ps as [|p ps IH]; intros H; [constructor|]. change (fl f g (p :: ps)) with (f p :: g p :: fl f g ps). destruct (H p (or_introl eq_refl)) as (H1 & H2).
  constructor; [exact H1|]. constructor; [exact H2|]. apply IH. intros q Hq. apply H. right. exact Hq.
Qed.
Lemma length_fl {A} (f g : A -> N) ps : length (fl f g ps) = (2 * length ps)%nat.
Proof. induction ps as [|p ps IH]; [reflexivity|]. change (fl f g (p :: ps)) with (f p :: g p :: fl f g ps). cbn [length]. rewrite IH. lia. Qed.
Lemma map_fst {A B} (l : list A) (l' : list B) : length l = length l' -> map fst (combine l l') = l.
Proof. revert l'. induction l as [|x l IH]; intros [|y l'] H; cbn in *; try discriminate; [reflexivity|]. f_equal. apply IH. lia. Qed.
Lemma map_snd {A B} (l : list A) (l' : list B) : length l = length l' -> map snd (combine l l') = l'.
Proof. revert l'. induction l as [|x l IH]; intros [|y l'] H; cbn in *; try discriminate; [reflexivity|]. f_equal. apply IH. lia. Qed.

Ltac nbits := apply N.bits_inj; intros ?n; tbits.
Lemma tbff00 n : N.testbit 65280 n = ((8 <=? n) && (n <? 16))%bool.
Proof.
  change 65280 with (N.shiftl 255 8). rewrite tb_shiftl, tb255. destruct (N.leb_spec 8 n), (N.ltb_spec (n - 8) 8), (N.ltb_spec n 16); try reflexivity; lia.
Qed.
Lemma split16_lo x y : x < 65536 -> y < 65536 ->
  wrap 8 (N.lor (wrap 16 (N.shiftl y 8)) (N.land x 255)) = N.land x 255 /\
  wrap 8 (N.shiftr (N.lor (wrap 16 (N.shiftl y 8)) (N.land x 255)) 8) = N.land y 255.
Proof.
  intros Hx Hy. split; apply N.bits_inj; intros n; tbits; rewrite !tb255.
  - destruct (N.ltb_spec n 8), (N.leb_spec 8 n); try lia; rewrite ?andb_true_r, ?andb_false_r; reflexivity.
  - destruct (N.ltb_spec n 8), (N.leb_spec 8 (n + 8)), (N.ltb_spec (n + 8) 16), (N.ltb_spec (n + 8) 8); try lia; rewrite ?andb_true_r, ?andb_false_r, ?orb_false_r, ?andb_true_l; try reflexivity. f_equal. lia.
Qed.
Lemma split16_hi x y : x < 65536 -> y < 65536 ->
  wrap 8 (N.lor (N.land y 65280) (N.shiftr x 8)) = N.shiftr x 8 /\
  wrap 8 (N.shiftr (N.lor (N.land y 65280) (N.shiftr x 8)) 8) = N.shiftr y 8.
Proof.
  intros Hx Hy. split; apply N.bits_inj; intros n; tbits; rewrite ?tbff00.
  - destruct (N.ltb_spec n 8), (N.leb_spec 8 n); try lia; rewrite ?andb_true_r, ?andb_false_r, ?andb_false_l; try reflexivity.
    symmetry. apply (testbit_high 16); [exact Hx|lia].
  - rewrite (testbit_high 16 x (n + 8 + 8)) by (try exact Hx; lia).
    destruct (N.ltb_spec n 8), (N.leb_spec 8 (n + 8)), (N.ltb_spec (n + 8) 16); try lia; rewrite ?andb_true_r, ?andb_false_r, ?orb_false_r; try reflexivity.
    symmetry. apply (testbit_high 16); [exact Hy|lia].
Qed.
Lemma join16 a b c d : a < 256 -> b < 256 -> c < 256 -> d < 256 ->
  N.lor (wrap 16 (N.shiftl (N.lor c (N.shiftl d 8)) 8)) (N.land (N.lor a (N.shiftl b 8)) 255) = N.lor a (N.shiftl c 8) /\
  N.lor (N.land (N.lor c (N.shiftl d 8)) 65280) (N.shiftr (N.lor a (N.shiftl b 8)) 8) = N.lor b (N.shiftl d 8).
Proof.
  intros Ha Hb Hc Hd. split; apply N.bits_inj; intros n; tbits; rewrite ?tb255, ?tbff00.
  - destruct (N.ltb_spec n 8) as [L|L].
    + destruct (N.leb_spec 8 n); [lia|]. rewrite ?andb_false_l, ?andb_true_r, ?orb_false_r. cbn [andb orb]. rewrite ?orb_false_l. reflexivity.
    + rewrite (testbit_high 8 a) by (try exact Ha; lia). destruct (N.leb_spec 8 n); [|lia]. rewrite ?andb_false_r, ?orb_false_r, ?andb_true_l, ?orb_false_l.
      destruct (N.ltb_spec n 16).
      * destruct (N.leb_spec 8 (n - 8)); [lia|]. rewrite ?andb_true_r, ?andb_false_l, ?orb_false_r. reflexivity.
      * rewrite andb_false_r. symmetry. apply (testbit_high 8); [exact Hc|lia].
  - rewrite (testbit_high 8 a (n + 8)) by (try exact Ha; lia). destruct (N.leb_spec 8 (n + 8)); [|lia]. rewrite andb_true_l, orb_false_l. replace (n + 8 - 8) with n by lia.
    destruct (N.leb_spec 8 n) as [L|L].
    + rewrite (testbit_high 8 b) by (try exact Hb; lia). rewrite (testbit_high 8 c n) by (try exact Hc; lia). rewrite ?orb_false_r, ?andb_true_l, ?orb_false_l.
      destruct (N.ltb_spec n 16); rewrite ?andb_true_r, ?andb_false_r; [reflexivity|]. symmetry. apply (testbit_high 8); [exact Hd|lia].
    + rewrite ?andb_false_l, ?andb_false_r, ?orb_false_r, ?orb_false_l. reflexivity.
Qed.
Lemma split16 x : x < 65536 ->
  x = N.lxor (N.lxor (N.land x 15) (N.shiftl (N.shiftr (N.land x 255) 4) 4)) (N.lxor (N.shiftl (N.land (N.shiftr x 8) 15) 8) (N.shiftl (N.shiftr (N.shiftr x 8) 4) 12)).
Proof.
  intros Hx. apply N.bits_inj; intros n; tbits; rewrite ?tb255, ?tb15.
  destruct (N.ltb_spec n 4), (N.leb_spec 4 n), (N.ltb_spec (n - 4 + 4) 8), (N.leb_spec 8 n), (N.ltb_spec (n - 8) 4), (N.leb_spec 12 n); try lia;
    rewrite ?andb_true_r, ?andb_false_r, ?andb_true_l, ?andb_false_l, ?xorb_false_r, ?xorb_false_l; try reflexivity; f_equal; lia.
Qed.
Lemma byte_join v : v < 65536 -> N.lor (wrap 8 v) (N.shiftl (wrap 8 (N.shiftr v 8)) 8) = v.
Proof.
  intros Hv. apply N.bits_inj; intros n; tbits. destruct (N.ltb_spec n 8), (N.leb_spec 8 n); try lia; rewrite ?andb_true_r, ?andb_false_r, ?andb_false_l, ?orb_false_r, ?orb_false_l; try reflexivity.
  destruct (N.ltb_spec (n - 8) 8); rewrite ?andb_true_l, ?andb_true_r, ?andb_false_r; [f_equal; lia|]. symmetry. apply (testbit_high 16); [exact Hv|lia].
Qed.

Lemma nth_lowb t k : length t = 16%nat -> k < 16 -> nth (N.to_nat k) (map (wrap 8) t) 0 = wrap 8 (nth (N.to_nat k) t 0).
Proof. intros L Hk. apply nth_map_N. lia. Qed.
Lemma nth_highb t k : length t = 16%nat -> k < 16 -> nth (N.to_nat k) (map (fun x => wrap 8 (N.shiftr x 8)) t) 0 = wrap 8 (N.shiftr (nth (N.to_nat k) t 0) 8).
Proof.
  intros L Hk. rewrite (nth_map_N (fun x => wrap 8 (N.shiftr x 8))) by lia. reflexivity.
Qed.
Lemma land15_lt x : N.land x 15 < 16.
Proof. change 15 with (N.ones 4). rewrite N.land_ones. apply N.mod_lt. discriminate. Qed.
Lemma land255_lt x : N.land x 255 < 256.
Proof. change 255 with (N.ones 8). rewrite N.land_ones. apply N.mod_lt. discriminate. Qed.
Lemma shr8_lt x : x < 65536 -> N.shiftr x 8 < 256.
Proof. intros H. rewrite N.shiftr_div_pow2. apply N.div_lt_upper_bound; [discriminate|exact H]. Qed.
Lemma land_255_15 x : N.land (N.land x 255) 15 = N.land x 15.
Proof. rewrite <- N.land_assoc. reflexivity. Qed.
Lemma lookup_fl {A} B lut (f g : A -> N) ps : length lut = 16%nat -> (2 * length ps)%nat = vwidth B ->
  (forall p, In p ps -> f p < 16 /\ g p < 16) ->
  vlookup B lut (fl f g ps) = fl (fun p => nth (N.to_nat (f p)) lut 0) (fun p => nth (N.to_nat (g p)) lut 0) ps.
Proof.
  intros L LP H. rewrite lookup_ok; [apply map_fl|exact L| |rewrite length_fl; exact LP].
  apply Forall_fl. exact H.
Qed.

Lemma mac_simd16_ok B c coff a aoff b cnt init : gf_M G = 16 -> small a -> small c -> b < Q1 ->
  (coff + cnt * vwidth B <= length c)%nat -> (aoff + cnt * vwidth B <= length a)%nat ->
  exists o, mac_simd16 G B c coff a aoff b (cnt * vwidth B) init = Ok o /\ mac_rel (mach b init) c coff a aoff (cnt * vwidth B) o.
Proof.
  intros E16 Ha Hc Hb Lc La. pose proof (vwidth_pos B) as WP. unfold mac_simd16.
  destruct (mac_table_ok b 0 Hb) as (t0 & E0 & L0 & H0); [rewrite E16; discriminate|].
  destruct (mac_table_ok b 4 Hb) as (t4 & E4 & L4 & H4); [rewrite E16; discriminate|].
  destruct (mac_table_ok b 8 Hb) as (t8 & E8 & L8 & H8); [rewrite E16; discriminate|].
  destruct (mac_table_ok b 12 Hb) as (t12 & E12 & L12 & H12); [rewrite E16; discriminate|].
  rewrite E0, E4, E8, E12. cbn [bind].
  edestruct (for_step_inv (fun k o => mac_rel (mach b init) c coff a aoff (k * vwidth B) o)) as (o & E & I).
  4: { exists o. split; [exact E|exact I]. }
  - exact WP.
  - intros k o Hk I. cbv beta. set (W := vwidth B) in *. assert (HkW : (k * W + W <= cnt * W)%nat) by nia.
    pose proof I as (LO & _). pose proof (mac_rel_small _ _ _ _ _ _ _ _ Hc Ha I) as Ho.
    set (H := (W / 2)%nat). assert (EW : (H + H = W)%nat) by (unfold H, W; destruct B; reflexivity).
    rewrite (vload_ok a (aoff + k * W) H), (vload_ok a (aoff + k * W + H) H) by lia. cbn [bind].
    set (al := firstn H (skipn (aoff + k * W) a)). set (ah := firstn H (skipn (aoff + k * W + H) a)).
    assert (LL : length al = H) by (apply vload_length; lia). assert (LH : length ah = H) by (apply vload_length; lia).
    set (ps := combine al ah). assert (LP : length ps = H) by (unfold ps; rewrite combine_length; lia).
    assert (Eal : al = map fst ps) by (symmetry; apply map_fst; lia). assert (Eah : ah = map snd ps) by (symmetry; apply map_snd; lia).
    assert (HPS : forall p, In p ps -> fst p < 65536 /\ snd p < 65536).
    { intros (x & y) Hp. pose proof (in_combine_l _ _ _ _ Hp) as Hx. pose proof (in_combine_r _ _ _ _ Hp) as Hy.
      pose proof (small_slice a (aoff + k * W) H Ha) as S1. pose proof (small_slice a (aoff + k * W + H) H Ha) as S2. unfold small in S1, S2. rewrite E16, Forall_forall in S1, S2. cbn [fst snd]. split; [apply S1|apply S2]; assumption. }
    clearbody ps. rewrite Eal, Eah. unfold vand, vshr, vor, vshl, vlow. unfold vand. rewrite !map_map, !map2_map, !bytes_fl.
    rewrite (fl_ext (fun p : N * N => wrap 8 (N.lor (wrap 16 (N.shiftl (snd p) 8)) (N.land (fst p) 255))) _ (fun p => N.land (fst p) 255) (fun p => N.land (snd p) 255))
      by (intros p Hp; apply split16_lo; apply HPS; exact Hp).
    rewrite (fl_ext (fun p : N * N => wrap 8 (N.lor (N.land (snd p) 65280) (N.shiftr (fst p) 8))) _ (fun p => N.shiftr (fst p) 8) (fun p => N.shiftr (snd p) 8))
      by (intros p Hp; apply split16_hi; apply HPS; exact Hp).
    rewrite !vhigh_ok.
    2: { apply Forall_fl. intros p Hp. destruct (HPS p Hp). split; apply shr8_lt; assumption. }
    2: { rewrite length_fl, LP. replace (2 * H)%nat with W by lia. apply vwidth_even. }
    2: { apply Forall_fl. intros p Hp. split; apply land255_lt. }
    2: { rewrite length_fl, LP. replace (2 * H)%nat with W by lia. apply vwidth_even. }
    rewrite !map_fl.
    assert (LPW : (2 * length ps)%nat = vwidth B) by (fold W; lia).
    assert (N1 : forall p : N * N, In p ps -> N.land (N.land (fst p) 255) 15 < 16 /\ N.land (N.land (snd p) 255) 15 < 16) by (intros; split; apply land15_lt).
    assert (N2 : forall p : N * N, In p ps -> N.shiftr (N.land (fst p) 255) 4 < 16 /\ N.shiftr (N.land (snd p) 255) 4 < 16) by (intros; split; apply shr4_lt, land255_lt).
    assert (N3 : forall p : N * N, In p ps -> N.land (N.shiftr (fst p) 8) 15 < 16 /\ N.land (N.shiftr (snd p) 8) 15 < 16) by (intros; split; apply land15_lt).
    assert (N4 : forall p : N * N, In p ps -> N.shiftr (N.shiftr (fst p) 8) 4 < 16 /\ N.shiftr (N.shiftr (snd p) 8) 4 < 16) by (intros p Hp; destruct (HPS p Hp); split; apply shr4_lt, shr8_lt; assumption).
    rewrite !lookup_fl by (first [rewrite !map_length; assumption | exact LPW | assumption]).
    unfold vxor. rewrite !map2_fl.
    assert (LANE : forall x, x < 65536 ->
      gm (gp b) x = N.lxor (N.lxor (nth (N.to_nat (N.land (N.land x 255) 15)) t0 0) (nth (N.to_nat (N.shiftr (N.land x 255) 4)) t4 0))
        (N.lxor (nth (N.to_nat (N.land (N.shiftr x 8) 15)) t8 0) (nth (N.to_nat (N.shiftr (N.shiftr x 8) 4)) t12 0))).
    { intros x Hx. rewrite H0, H4, H8, H12 by (first [apply land15_lt | apply shr4_lt; first [apply land255_lt | apply shr8_lt; exact Hx]]).
      rewrite N.shiftl_0_r, land_255_15, <- !gmul_lxor_r by assumption. f_equal. apply split16. exact Hx. }
    rewrite (fl_ext _ _ (fun p => wrap 8 (N.shiftr (gm (gp b) (fst p)) 8)) (fun p => wrap 8 (N.shiftr (gm (gp b) (snd p)) 8))).
    2: { intros p Hp. destruct (HPS p Hp) as (P1 & P2). rewrite (LANE (fst p)), (LANE (snd p)), !N.shiftr_lxor, !wrap_lxor by assumption.
         rewrite !nth_highb by (first [assumption | apply land15_lt | apply shr4_lt; first [apply land255_lt | apply shr8_lt; assumption]]). split; reflexivity. }
    rewrite (fl_ext (fun p : N * N => N.lxor (N.lxor (nth (N.to_nat (N.land (N.land (fst p) 255) 15)) (map (wrap 8) t0) 0) _) _) _ (fun p => wrap 8 (gm (gp b) (fst p))) (fun p => wrap 8 (gm (gp b) (snd p)))).
    2: { intros p Hp. destruct (HPS p Hp) as (P1 & P2). rewrite (LANE (fst p)), (LANE (snd p)), !wrap_lxor by assumption.
         rewrite !nth_lowb by (first [assumption | apply land15_lt | apply shr4_lt; first [apply land255_lt | apply shr8_lt; assumption]]). split; reflexivity. }
    rewrite !words_fl, !map_map, !map2_map.
    assert (GB : forall x, x < 65536 -> gm (gp b) x < 65536).
    { intros x Hx. change 65536 with (2 ^ 16). rewrite <- E16. apply gmul_lt; try assumption. rewrite E16. exact Hx. }
    assert (B8 : forall v, wrap 8 v < 256) by (intros v; apply (wrap_lt 8)).
    rewrite (map_ext_in _ (fun p : N * N => gm (gp b) (fst p))).
    2: { intros p Hp. destruct (HPS p Hp) as (P1 & P2). rewrite (proj1 (join16 _ _ _ _ (B8 _) (B8 _) (B8 _) (B8 _))). apply byte_join. apply GB, P1. }
    rewrite (map_ext_in (fun p : N * N => N.lor (N.land _ 65280) _) (fun p : N * N => gm (gp b) (snd p))).
    2: { intros p Hp. destruct (HPS p Hp) as (P1 & P2). rewrite (proj2 (join16 _ _ _ _ (B8 _) (B8 _) (B8 _) (B8 _))). apply byte_join. apply GB, P2. }
    rewrite <- (map_map fst (gm (gp b))), <- (map_map snd (gm (gp b))), <- Eal, <- Eah.
    assert (NL : forall t, (t < H)%nat -> nth t (map (gm (gp b)) al) 0 = gm (gp b) (nth (aoff + k * W + t) a 0)).
    { intros t Ht. rewrite nth_map_N by lia. unfold al. rewrite nth_slice. destruct (Nat.ltb_spec t H); [reflexivity|lia]. }
    assert (NH : forall t, (t < H)%nat -> nth t (map (gm (gp b)) ah) 0 = gm (gp b) (nth (aoff + k * W + H + t) a 0)).
    { intros t Ht. rewrite nth_map_N by lia. unfold ah. rewrite nth_slice. destruct (Nat.ltb_spec t H); [reflexivity|lia]. }
    assert (EV : exists u v, (if init then Ok (map (gm (gp b)) al, map (gm (gp b)) ah) else
         ol <- vload o (coff + k * W) H ;; oh <- vload o (coff + k * W + H) H ;; Ok (map2 N.lxor (map (gm (gp b)) al) ol, map2 N.lxor (map (gm (gp b)) ah) oh)) = Ok (u, v) /\
        length u = H /\ length v = H /\
        (forall t, (t < H)%nat -> nth t u 0 = mach b init (nth (aoff + k * W + t) a 0) (nth (coff + k * W + t) o 0)) /\
        (forall t, (t < H)%nat -> nth t v 0 = mach b init (nth (aoff + k * W + H + t) a 0) (nth (coff + k * W + H + t) o 0))).
    { destruct init.
      - eexists _, _. split; [reflexivity|]. rewrite !map_length. split; [exact LL|]. split; [exact LH|]. split; [exact NL|exact NH].
      - rewrite !vload_ok by lia. cbn [bind]. eexists _, _. split; [reflexivity|].
        assert (L1 : length (map (gm (gp b)) al) = length (firstn H (skipn (coff + k * W) o))) by (rewrite map_length, LL, vload_length; lia).
        assert (L2 : length (map (gm (gp b)) ah) = length (firstn H (skipn (coff + k * W + H) o))) by (rewrite map_length, LH, vload_length; lia).
        split; [rewrite length_map2 by exact L1; rewrite map_length; exact LL|].
        split; [rewrite length_map2 by exact L2; rewrite map_length; exact LH|].
        split; intros t Ht.
        + rewrite nth_map2 by (try exact L1; rewrite map_length; lia). rewrite NL by exact Ht. rewrite nth_slice. destruct (Nat.ltb_spec t H); [reflexivity|lia].
        + rewrite nth_map2 by (try exact L2; rewrite map_length; lia). rewrite NH by exact Ht. rewrite nth_slice. destruct (Nat.ltb_spec t H); [reflexivity|lia]. }
    destruct EV as (u & v & Eu & LU & LV & HU & HV). rewrite Eu. cbn [bind]. rewrite vstore_ok by lia. cbn [bind].
    set (o1 := firstn (coff + k * W) o ++ u ++ skipn (coff + k * W + length u) o).
    assert (I1 : mac_rel (mach b init) c coff a aoff (k * W + H) o1) by (apply chunk_rel; try assumption; lia).
    pose proof I1 as (LO1 & _).
    rewrite vstore_ok by lia. eexists. split; [reflexivity|].
    replace (S k * W)%nat with (k * W + H + H)%nat by lia.
    rewrite <- (Nat.add_assoc coff (k * W) H). apply chunk_rel; try assumption; try lia.
    intros t Ht. rewrite HV by exact Ht. f_equal; [f_equal; lia|]. unfold o1. rewrite nth_vstore by lia.
    destruct (Nat.leb_spec (coff + k * W) (coff + (k * W + H) + t)), (Nat.ltb_spec (coff + (k * W + H) + t) (coff + k * W + length u)); cbn [andb]; try lia. f_equal. lia.
  - apply mac_rel_nil.
Qed.

Lemma mac_ok B al c coff a aoff b len init : small a -> small c -> b < Q1 ->
  (coff + len <= length c)%nat -> (aoff + len <= length a)%nat ->
  exists o, mac G B al c coff a aoff b len init = Ok o /\ mac_rel (mach b init) c coff a aoff len o.
Proof.
  intros Ha Hc Hb Lc La. unfold mac. destruct B as [B|]; [|apply mac_scalar_ok; assumption].
  destruct (al && (len mod vwidth B =? 0)%nat)%bool eqn:E; cbn [andb]; [|apply mac_scalar_ok; assumption].
  apply andb_prop in E. destruct E as (_ & E). apply Nat.eqb_eq in E. pose proof (vwidth_pos B) as WP.
  assert (EL : len = (len / vwidth B * vwidth B)%nat) by (rewrite (Nat.div_mod len (vwidth B)) at 1 by lia; lia).
  destruct (N.eqb_spec (gf_M G) 8) as [M8|M8], (N.eqb_spec (gf_w G) 8) as [W8|W8]; cbn [andb]; try (rewrite EL; apply mac_simd8_ok; try assumption; lia).
  all: destruct (N.eqb_spec (gf_M G) 16) as [M16|M16], (N.eqb_spec (gf_w G) 16) as [W16|W16]; cbn [andb]; try (rewrite EL; apply mac_simd16_ok; try assumption; lia).
  all: apply mac_scalar_ok; assumption.
Qed.
End S.
