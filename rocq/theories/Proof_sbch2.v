(** Proofs about Model_sbch: the soft decoder. *)
From Coq Require Import ZifyBool ZifyNat ZifyN.
From Verif Require Import Cpp Lib_list Model_sbch Spec_gf Spec_wht Spec_sbch Lib_gf2lin Lib_gf2poly Lib_gf Lib_wht Proof_sbch.
Local Open Scope Z_scope.

Lemma sign_bit y : Z.shiftr (to_int y) 31 = - Z.b2z (Z.testbit y 31).
Proof.
  rewrite Z.shiftr_div_pow2, Z.testbit_spec' by lia. unfold to_int. change (2 ^ 31) with 2147483648.
  pose proof (Z.div_mod y 2147483648 ltac:(lia)) as D. pose proof (Z.mod_pos_bound y 2147483648 ltac:(lia)) as R.
  set (q := y / 2147483648) in *. set (r := y mod 2147483648) in *. clearbody q r.
  pose proof (Z.div_mod q 2 ltac:(lia)) as D2. pose proof (Z.mod_pos_bound q 2 ltac:(lia)) as R2.
  set (h := q / 2) in *. set (b := q mod 2) in *. clearbody h b. subst q y.
  assert (b = 0 \/ b = 1) as [-> | ->] by lia.
  - replace (2147483648 * (2 * h + 0) + r + 2147483648) with (r + 2147483648 + h * 4294967296) by lia.
    rewrite Z.mod_add, Z.mod_small by lia. rewrite Z.div_small by lia. reflexivity.
  - replace (2147483648 * (2 * h + 1) + r + 2147483648) with (r + (h + 1) * 4294967296) by lia.
    rewrite Z.mod_add, Z.mod_small by lia. replace (r - 2147483648) with (r + (-1) * 2147483648) by lia. rewrite Z.div_add, Z.div_small by lia. reflexivity.
Qed.

Definition met (n : nat) (soft : list Z) (c : N) : Z := zsum n (fun i => - Z.b2z (N.testbit c (N.of_nat i)) * nth i soft 0).
Lemma int8_nth' code i : Forall int8 code -> Z.abs (nth i code 0) <= 128.
Proof.
  intros H. destruct (Nat.lt_ge_cases i (length code)) as [L|L].
  - assert (B : int8 (nth i code 0)) by (apply (proj1 (Forall_nth int8 code) H); exact L). unfold int8 in B. lia.
  - rewrite nth_overflow by exact L. cbn. lia.
Qed.
Lemma met_bound n soft c : Forall int8 soft -> Z.abs (met n soft c) <= Z.of_nat n * 128.
Proof.
  intros H. apply zsum_bound. intros i Hi. pose proof (int8_nth' soft i H). rewrite Z.abs_mul. destruct (N.testbit c (N.of_nat i)); cbn [Z.b2z]; lia.
Qed.
Lemma metric_ok n soft c : (n <= 31)%nat -> length soft = n -> Forall int8 soft -> sb_metric n soft (Z.of_N c) = Ok (met n soft c).
Proof.
  intros Hn HL HB. unfold sb_metric. destruct (Z.ltb_spec (Z.of_N c) 0); [lia|].
  edestruct (for_up_inv (fun i s => s = met i soft c)) as (s & E & ->).
  4: { exact E. }
  - lia.
  - intros i s Hi ->. cbv beta. rewrite (rd_nth soft i 0) by lia. cbn [bind]. rewrite sign_bit, Z.shiftl_spec by lia.
    replace (31 - (31 - Z.of_nat i)) with (Z.of_N (N.of_nat i)) by lia. rewrite Z.testbit_of_N.
    pose proof (int8_nth' soft i HB). pose proof (met_bound i soft c HB).
    rewrite chk_ok by (destruct (N.testbit c (N.of_nat i)); cbn [Z.b2z]; lia). cbn [bind].
    rewrite chk_ok by (destruct (N.testbit c (N.of_nat i)); cbn [Z.b2z]; lia). eexists. split; [reflexivity|]. reflexivity.
  - reflexivity.
Qed.
Lemma dot_bpsk n soft c : length soft = n -> dot (bpsk n c) soft = zsum n (fun i => nth i soft 0) + 2 * met n soft c.
Proof.
  intros HL. unfold bpsk. rewrite dot_word by exact HL. unfold met. rewrite <- zsum_scale, <- zsum_plus. apply zsum_ext. intros i Hi.
  destruct (N.testbit c (N.of_nat i)); cbn [Z.b2z]; lia.
Qed.

(** hard decisions *)
Fixpoint signs (soft : list Z) (m : nat) : N := match m with O => 0 | S m' => N.lxor (signs soft m') (if nth m' soft 0 <? 0 then 2 ^ N.of_nat m' else 0) end.
Lemma signs_lt soft m : (signs soft m < 2 ^ N.of_nat m)%N.
Proof.
  induction m as [|m IH]; [reflexivity|]. cbn [signs]. apply lxor_lt.
  - eapply N.lt_le_trans; [exact IH|]. apply N.pow_le_mono_r; lia.
  - destruct (_ <? 0); [apply N.pow_lt_mono_r; lia|apply pow2_nz].
Qed.
Lemma signs_bit soft m i : N.testbit (signs soft m) (N.of_nat i) = ((i <? m)%nat && (nth i soft 0 <? 0))%bool.
Proof.
  induction m as [|m IH]; [reflexivity|]. cbn [signs]. rewrite N.lxor_spec, IH.
  replace (N.testbit (if nth m soft 0 <? 0 then 2 ^ N.of_nat m else 0) (N.of_nat i)) with ((nth m soft 0 <? 0) && (m =? i)%nat)%bool.
  2: { destruct (nth m soft 0 <? 0); [rewrite N.pow2_bits_eqb; lia|reflexivity]. }
  destruct (Nat.eqb_spec m i) as [->|Hne].
  - destruct (Nat.ltb_spec i i); [lia|]. destruct (Nat.ltb_spec i (S i)); [|lia]. destruct (nth i soft 0 <? 0); reflexivity.
  - rewrite andb_false_r, xorb_false_r. replace (i <? S m)%nat with (i <? m)%nat by lia. reflexivity.
Qed.

Section Soft.
Variables n k t : nat.
Variable g : N.
Hypothesis Hk : (1 <= k < n)%nat.
Hypothesis Hn : (n <= 31)%nat.
Hypothesis Hp : (n - k <= 15)%nat.
Hypothesis HG : has_degree g (N.of_nat (n - k)).
Hypothesis Ht : (1 <= t <= 3)%nat.
Variable par : list (option Z).
Variable err : list Z.
Hypothesis HPar : parOK n k g par.
Hypothesis HErr : einv n k g t (fun e => (e <> 0)%N /\ (e < 2 ^ N.of_nat n)%N /\ (ones e <= t)%nat) err.
Variable soft : list Z.
Hypothesis HL : length soft = n.
Hypothesis HB : Forall int8 soft.
Notation cwd := (codeword n g).
Notation mt := (met n soft).
Notation signs := (signs soft).
Notation signs_lt := (signs_lt soft).

Lemma HErr' : einv n k g t (fun e => (e <> 0)%N /\ (e < 2 ^ N.of_nat n)%N /\ (ones e <= t)%nat) err.
Proof. exact HErr. Qed.
Lemma hard_dec x : (x < 2 ^ N.of_nat n)%N -> exists r, sb_hard n k par err (Z.of_N x) = Ok r /\
  ((exists c, r = Z.of_N c /\ cwd c /\ (distance x c <= t)%nat) \/ (r = -1 /\ forall c, cwd c -> (t < distance x c)%nat)).
Proof. intros Hx. apply hard_ok; try assumption. Qed.

Lemma hard_decisions : for_up 0 n (fun i cw => c <- rd soft i ;; x <- shl (Z.b2z (c <? 0)) i ;; Ok (Z.lor cw x)) 0 = Ok (Z.of_N (signs n)).
Proof.
  edestruct (for_up_inv (fun i s => s = Z.of_N (signs i))) as (s & E & ->).
  4: { exact E. }
  - lia.
  - intros i s Hi ->. cbv beta. rewrite (rd_nth soft i 0) by lia. cbn [bind]. set (b := nth i soft 0 <? 0).
    replace (Z.b2z b) with (Z.of_N (N.b2n b)) by (destruct b; reflexivity). rewrite (shl_ok _ _ 1) by (destruct b; try reflexivity; cbn; lia).
    cbn [bind]. eexists. split; [reflexivity|]. cbn [signs]. fold b. rewrite Z_lor_N. f_equal. pose proof (signs_lt i) as B.
    apply N.bits_inj. intros j. rewrite N.lor_spec, N.lxor_spec. destruct b; cbn [N.b2n].
    + rewrite N.shiftl_1_l, N.pow2_bits_eqb. destruct (N.eqb_spec (N.of_nat i) j) as [<-|]; [|rewrite orb_false_r, xorb_false_r; reflexivity].
      rewrite (tb_ge _ (N.of_nat i)) by (assumption || lia). reflexivity.
    + rewrite N.shiftl_0_l, N.bits_0, orb_false_r, xorb_false_r. reflexivity.
  - reflexivity.
Qed.

(** what update preserves: the word is -1 (metric -1) or a codeword with its metric *)
Definition wstate (lo : Z) (s : Z * Z * Z) : Prop :=
  let '(word, best, next) := s in lo <= best /\ ((word = -1 /\ best = -1) \/ exists c, word = Z.of_N c /\ cwd c /\ best = mt c).
Definition candidate (h : Z) : Prop := h = -1 \/ exists c, h = Z.of_N c /\ cwd c.
Lemma metric_cand h : candidate h -> exists m, sb_metric n soft h = Ok m /\ ((h = -1 /\ m = -1) \/ exists c, h = Z.of_N c /\ cwd c /\ m = mt c).
Proof.
  intros [->|(c & -> & HC)].
  - exists (-1). split; [reflexivity|left; auto].
  - exists (mt c). split; [apply metric_ok; assumption|right; exists c; auto].
Qed.
Lemma update_ok lo h s : candidate h -> wstate lo s -> exists s', sb_update n soft h s = Ok s' /\ wstate lo s'.
Proof.
  destruct s as [[word best] next]. intros HC (Hlo & HW). unfold sb_update. destruct (h =? word).
  { eexists. split; [reflexivity|]. split; assumption. }
  destruct (metric_cand h HC) as (m & Em & HM). rewrite Em. cbn [bind]. eexists. split; [reflexivity|].
  destruct (Z.ltb_spec best m); [split; [lia|exact HM]|]. destruct (next <? m); split; assumption.
Qed.

Lemma abs_lt_worst (w : list Z) : length w = t -> Forall (fun x => 0 <= x < Z.of_nat n) w -> forall kk, (kk < n)%nat ->
  exists j, while_ (S t) (fun j => if (j <? t)%nat then (w <- rd w j ;; cw <- rdZ soft w ;; Ok (Z.abs cw <? Z.abs (nth kk soft 0))) else Ok false)
         (fun j => Ok (S j)) 0%nat = Ok j /\ (j <= t)%nat.
Proof.
  intros LW FW kk Hkk.
  edestruct (while_inv (fun j => (j <= t)%nat) (fun j => (t - j)%nat)) as (j & E & Hj & _).
  4: { exists j. split; [exact E|exact Hj]. }
  - intros j Hj. cbv beta. destruct (Nat.ltb_spec j t).
    + assert (B : 0 <= nth j w 0 < Z.of_nat n) by (apply (proj1 (Forall_nth (fun x => 0 <= x < Z.of_nat n) w) FW); lia).
      rewrite (rd_nth w j 0) by lia. cbn [bind]. rewrite (rdZ_nth soft _ 0) by lia. cbn [bind]. eexists. split; [reflexivity|]. intros _.
      eexists. split; [reflexivity|]. lia.
    + eexists. split; [reflexivity|]. discriminate.
  - lia.
  - lia.
Qed.
Lemma worst_ok : exists w, sb_worst n t soft = Ok w /\ length w = t /\ Forall (fun x => 0 <= x < Z.of_nat n) w.
Proof.
  unfold sb_worst.
  edestruct (for_up_inv (fun i (w : list Z) => length w = t /\ Forall (fun x => 0 <= x < Z.of_nat n) w)) as (w & E & L & F).
  4: { exists w. split; [exact E|auto]. }
  - lia.
  - intros i w Hi (L & F). cbv beta. rewrite (rd_nth soft i 0) by lia. cbn [bind].
    destruct (abs_lt_worst w L F i ltac:(lia)) as (j & Ej & Hj). rewrite Ej. cbn [bind].
    assert (U : forall (w : list Z) a v, length w = t -> Forall (fun x => 0 <= x < Z.of_nat n) w -> 0 <= v < Z.of_nat n ->
       length (upd w a v) = t /\ Forall (fun x => 0 <= x < Z.of_nat n) (upd w a v)).
    { intros w0 a v L0 F0 Hv. split; [rewrite length_upd; exact L0|]. apply (proj2 (Forall_nth _ _)). intros q d Hq. rewrite length_upd in Hq. rewrite nth_upd.
      destruct ((a =? q) && (a <? length w0))%nat; [exact Hv|]. apply (proj1 (Forall_nth _ _) F0). exact Hq. }
    assert (exists w', for_down t (S j) (fun i worst => w <- rd worst (i - 1) ;; wr worst i w) w = Ok w' /\ length w' = t /\ Forall (fun x => 0 <= x < Z.of_nat n) w') as (w' & E' & L' & F').
    { destruct (Nat.le_gt_cases (S j) t) as [Hjt|Hjt].
      - edestruct (for_down_inv (fun _ (w : list Z) => length w = t /\ Forall (fun x => 0 <= x < Z.of_nat n) w)) as (w' & E' & R').
        4: { exists w'. split; [exact E'|exact R']. }
        + exact Hjt.
        + intros q v Hq (Lv & Fv). cbv beta. rewrite (rd_nth v _ 0) by lia. cbn [bind]. rewrite wr_Ok by lia. eexists. split; [reflexivity|]. apply U; try assumption.
          apply (proj1 (Forall_nth (fun x => 0 <= x < Z.of_nat n) v) Fv). lia.
        + auto.
      - exists w. unfold for_down. replace (t - S j)%nat with 0%nat by lia. auto. }
    rewrite E'. cbn [bind]. destruct (Nat.ltb_spec j t).
    + rewrite wr_Ok by lia. eexists. split; [reflexivity|]. apply U; try assumption. lia.
    + eexists. split; [reflexivity|]. auto.
  - split; [apply repeat_length|]. apply Forall_forall. intros x Hx. apply repeat_spec in Hx. subst. lia.
Qed.

Lemma flips_ok w j : length w = t -> Forall (fun x => 0 <= x < Z.of_nat n) w ->
  exists y, for_up 0 t (fun i tmp => w <- rd w i ;; x <- shl (Z.land (Z.shiftr (Z.of_nat j) (Z.of_nat i)) 1) (Z.to_nat w) ;; Ok (Z.lor tmp x)) 0 = Ok (Z.of_N y) /\ (y < 2 ^ N.of_nat n)%N.
Proof.
  intros LW FW.
  edestruct (for_up_inv (fun i s => exists y, s = Z.of_N y /\ (y < 2 ^ N.of_nat n)%N)) as (s & E & y & -> & B).
  4: { exists y. split; [exact E|exact B]. }
  - lia.
  - intros i s Hi (y & -> & By). cbv beta. rewrite (rd_nth w i 0) by lia. cbn [bind].
    assert (B : 0 <= nth i w 0 < Z.of_nat n) by (apply (proj1 (Forall_nth (fun x => 0 <= x < Z.of_nat n) w) FW); lia).
    rewrite <- nat_N_Z, Z_shiftr_N. change 1 with (Z.of_N 1). rewrite Z_land_N.
    set (b := N.land (N.shiftr (N.of_nat j) (N.of_nat i)) 1).
    assert (Bb : (b < 2)%N). { unfold b. change 1%N with (N.ones 1). rewrite N.land_ones. apply N.mod_lt. discriminate. }
    rewrite (shl_ok b _ 1) by (exact Bb || lia). cbn [bind]. rewrite Z_lor_N. eexists. split; [reflexivity|]. eexists. split; [reflexivity|].
    apply tb_lt. intros q Hq. rewrite N.lor_spec, (tb_ge y (N.of_nat n)) by assumption.
    apply (tb_ge _ (N.of_nat n)); [|exact Hq]. eapply N.lt_le_trans; [apply (shiftl_lt b _ 1); exact Bb|]. apply N.pow_le_mono_r; lia.
  - exists 0%N. split; [reflexivity|apply pow2_nz].
Qed.

(** the general statement: -1 or a codeword at least as good as the hard decision *)
Lemma enc_cw msg : (msg < 2 ^ k)%nat -> exists c, (x <- shl (Z.of_nat msg) (n - k) ;; p <- rduZ' par (Z.of_nat msg) ;; Ok (Z.lor x p)) = Ok (Z.of_N c) /\ cwd c /\ N.shiftr c (N.of_nat (n - k)) = N.of_nat msg.
Proof.
  intros H. destruct (encode_ok n k g Hk Hn Hp par (N.of_nat msg) HPar) as (c & E & C & S').
  - rewrite <- pow2_of_nat. lia.
  - exists c. split; [|auto]. rewrite <- E. unfold sb_encode. rewrite nat_N_Z. reflexivity.
Qed.
Lemma enc_step msg (f : Z -> res (Z * Z * Z)) : (msg < 2 ^ k)%nat -> exists c, cwd c /\ N.shiftr c (N.of_nat (n - k)) = N.of_nat msg /\
  (x <- shl (Z.of_nat msg) (n - k) ;; p <- rduZ' par (Z.of_nat msg) ;; f (Z.lor x p)) = f (Z.of_N c).
Proof.
  intros H. destruct (enc_cw msg H) as (c & E & C & S'). exists c. split; [exact C|]. split; [exact S'|].
  destruct (shl (Z.of_nat msg) (n - k)) as [x| | |]; try discriminate. cbn [bind] in *. destruct (rduZ' par (Z.of_nat msg)) as [q| | |]; try discriminate. cbn [bind] in *.
  injection E as ->. reflexivity.
Qed.

Lemma soft_ok : exists r, sb_soft n k t par err soft = Ok r /\ (r = -1 \/ exists c, r = Z.of_N c /\ cwd c /\
  forall c0, sb_hard n k par err (Z.of_N (signs n)) = Ok (Z.of_N c0) -> mt c0 <= mt c).
Proof.
  unfold sb_soft. rewrite hard_decisions. cbn [bind].
  destruct (hard_dec (signs n) (signs_lt n)) as (w0 & E0 & R0). rewrite E0. cbn [bind].
  assert (C0 : candidate w0) by (destruct R0 as [(c & -> & HC & _)|(-> & _)]; [right; exists c; auto|left; reflexivity]).
  destruct (metric_cand w0 C0) as (b0 & Eb & HM). rewrite Eb. cbn [bind].
  assert (W0 : wstate b0 (w0, b0, -2)) by (split; [lia|exact HM]).
  assert (exists s, (if (4 <? k)%nat then
          worst <- sb_worst n t soft ;;
          for_up 1 (2 ^ t) (fun j s =>
            tmp <- for_up 0 t (fun i tmp => w <- rd worst i ;; x <- shl (Z.land (Z.shiftr (Z.of_nat j) (Z.of_nat i)) 1) (Z.to_nat w) ;; Ok (Z.lor tmp x)) 0 ;;
            dec <- sb_hard n k par err (Z.lxor (Z.of_N (signs n)) tmp) ;;
            sb_update n soft dec s) (w0, b0, -2)
        else Ok (w0, b0, -2)) = Ok s /\ wstate b0 s) as (s1 & E1 & W1).
  { destruct (4 <? k)%nat; [|eauto]. destruct worst_ok as (w & Ew & Lw & Fw). rewrite Ew. cbn [bind].
    edestruct (for_up_inv (fun (_ : nat) s => wstate b0 s)) as (s & E & W).
    4: { exists s. split; [exact E|exact W]. }
    - pose proof (pow2_pos t). lia.
    - intros j s Hj Ws. cbv beta. destruct (flips_ok w j Lw Fw) as (y & Ey & By). rewrite Ey. cbn [bind]. rewrite Z_lxor_N.
      destruct (hard_dec (N.lxor (signs n) y)) as (h & Eh & Rh); [apply lxor_lt; [apply signs_lt|exact By]|]. rewrite Eh. cbn [bind].
      apply update_ok; [|exact Ws]. destruct Rh as [(c & -> & HC & _)|(-> & _)]; [right; exists c; auto|left; reflexivity].
    - exact W0. }
  rewrite E1. cbn [bind].
  assert (exists s, (if (k <=? 4)%nat then
          for_up 0 (2 ^ k) (fun msg s => x <- shl (Z.of_nat msg) (n - k) ;; p <- rduZ' par (Z.of_nat msg) ;; sb_update n soft (Z.lor x p) s) s1
        else Ok s1) = Ok s /\ wstate b0 s) as ([[word best] next] & E2 & W2).
  { destruct (k <=? 4)%nat; [|eauto].
    edestruct (for_up_inv (fun (_ : nat) s => wstate b0 s)) as (s & E & W).
    4: { exists s. split; [exact E|exact W]. }
    - lia.
    - intros msg s Hm Ws. cbv beta. destruct (enc_step msg (fun h => sb_update n soft h s) ltac:(lia)) as (c & HC & _ & E). rewrite E.
      apply update_ok; [right; exists c; auto|exact Ws].
    - exact W1. }
  rewrite E2. cbn [bind]. eexists. split; [reflexivity|]. destruct (best =? next); [left; reflexivity|].
  destruct W2 as (Hlo & [(-> & ->)|(c & -> & HC & ->)]); [left; reflexivity|right]. exists c. split; [reflexivity|]. split; [exact HC|].
  intros c0 Ec0. injection Ec0 as ->. destruct HM as [(HM & _)|(c' & Ec & _ & ->)]; [lia|]. assert (c' = c0) by lia. subst. exact Hlo.
Qed.

(** exhaustive search: exact *)
Definition seen (w0 : Z) (i : nat) (c : N) : Prop := cwd c /\ (Z.of_N c = w0 \/ (N.shiftr c (N.of_nat (n - k)) < N.of_nat i)%N).
Definition mlinv (w0 : Z) (i : nat) (s : Z * Z * Z) : Prop :=
  let '(word, best, next) := s in
  0 <= best /\ next <= best /\ exists c, word = Z.of_N c /\ seen w0 i c /\ best = mt c /\
  (forall c', seen w0 i c' -> c' <> c -> mt c' <= next) /\ (next < 0 \/ exists c', seen w0 i c' /\ c' <> c /\ mt c' = next).
Lemma seen_S w0 i c c' : cwd c -> N.shiftr c (N.of_nat (n - k)) = N.of_nat i -> seen w0 (S i) c' -> seen w0 i c' \/ c' = c.
Proof.
  intros HC Hc (HC' & [H|H]); [left; split; [exact HC'|left; exact H]|].
  destruct (N.eq_dec (N.shiftr c' (N.of_nat (n - k))) (N.of_nat i)) as [E|E].
  - right. apply (codeword_msg n k g Hk Hn Hp HG); congruence.
  - left. split; [exact HC'|right; lia].
Qed.
Lemma seen_mono w0 i c : seen w0 i c -> seen w0 (S i) c.
Proof. intros (H & [H'|H']); split; auto. right. lia. Qed.
Lemma mlinv_step w0 i c s : cwd c -> N.shiftr c (N.of_nat (n - k)) = N.of_nat i -> mlinv w0 i s ->
  exists s', sb_update n soft (Z.of_N c) s = Ok s' /\ mlinv w0 (S i) s'.
Proof.
  intros HC Hc. destruct s as [[word best] next]. intros (B0 & NB & d & -> & Sd & -> & Oth & Att). unfold sb_update.
  assert (Sc : seen w0 (S i) c) by (split; [exact HC|right; lia]).
  destruct (Z.eqb_spec (Z.of_N c) (Z.of_N d)) as [E|E].
  { assert (c = d) by lia. subst d. eexists. split; [reflexivity|]. split; [exact B0|]. split; [exact NB|]. exists c. split; [reflexivity|]. split; [exact Sc|]. split; [reflexivity|]. split.
    - intros c' Sc' Hne. destruct (seen_S w0 i c c' HC Hc Sc') as [H|H]; [apply Oth; assumption|congruence].
    - destruct Att as [H|(c' & H1 & H2 & H3)]; [left; exact H|right; exists c'; split; [apply seen_mono; exact H1|auto]]. }
  assert (c <> d) by congruence.
  rewrite metric_ok by assumption. cbn [bind]. eexists. split; [reflexivity|].
  destruct (Z.ltb_spec (mt d) (mt c)) as [C|C].
  - split; [lia|]. split; [lia|]. exists c. split; [reflexivity|]. split; [exact Sc|]. split; [reflexivity|]. split.
    + intros c' Sc' Hne. destruct (seen_S w0 i c c' HC Hc Sc') as [H'|H']; [|congruence].
      destruct (N.eq_dec c' d) as [->|Hd]; [lia|]. specialize (Oth c' H' Hd). lia.
    + right. exists d. split; [apply seen_mono; exact Sd|]. split; [congruence|reflexivity].
  - destruct (Z.ltb_spec next (mt c)) as [C2|C2].
    + split; [lia|]. split; [lia|]. exists d. split; [reflexivity|]. split; [apply seen_mono; exact Sd|]. split; [reflexivity|]. split.
      * intros c' Sc' Hne. destruct (seen_S w0 i c c' HC Hc Sc') as [H'| ->]; [|lia]. specialize (Oth c' H' Hne). lia.
      * right. exists c. auto.
    + split; [lia|]. split; [lia|]. exists d. split; [reflexivity|]. split; [apply seen_mono; exact Sd|]. split; [reflexivity|]. split.
      * intros c' Sc' Hne. destruct (seen_S w0 i c c' HC Hc Sc') as [H'| ->]; [|lia]. apply Oth; assumption.
      * destruct Att as [H'|(c' & H1 & H2 & H3)]; [left; exact H'|right; exists c'; split; [apply seen_mono; exact H1|auto]].
Qed.
Lemma cwd_0 : cwd 0%N. Proof. split; [apply pow2_nz|]. exists 0%N. reflexivity. Qed.
Lemma met_0 : mt 0%N = 0.
Proof. unfold met. apply zsum_0. intros i Hi. rewrite N.bits_0. reflexivity. Qed.
Lemma mlinv_first w0 b0 : ((w0 = -1 /\ b0 = -1) \/ exists c, w0 = Z.of_N c /\ cwd c /\ b0 = mt c) ->
  exists s, sb_update n soft 0 (w0, b0, -2) = Ok s /\ mlinv w0 1 s.
Proof.
  intros H0. unfold sb_update.
  assert (S1 : forall c, seen w0 1 c -> Z.of_N c = w0 \/ c = 0%N).
  { intros c (HC & [H|H]); [left; exact H|right]. apply (codeword_msg n k g Hk Hn Hp HG); [exact HC|exact cwd_0|]. rewrite N.shiftr_0_l. lia. }
  assert (S0 : seen w0 1 0%N) by (split; [exact cwd_0|right; rewrite N.shiftr_0_l; lia]).
  destruct H0 as [(-> & ->)|(c & -> & HC & ->)].
  - cbn [Z.eqb]. change 0 with (Z.of_N 0) at 1. rewrite metric_ok, met_0 by assumption. cbn [bind]. eexists. split; [reflexivity|]. cbn.
    split; [lia|]. split; [lia|]. exists 0%N. split; [reflexivity|]. split; [exact S0|]. split; [symmetry; exact met_0|]. split; [|left; lia].
    intros c' Sc Hne. destruct (S1 c' Sc); [lia|contradiction].
  - assert (Sc : seen (Z.of_N c) 1 c) by (split; [exact HC|left; reflexivity]).
    destruct (Z.eqb_spec 0 (Z.of_N c)) as [E|E].
    + assert (c = 0%N) by lia. subst c. eexists. split; [reflexivity|]. rewrite met_0. split; [lia|]. split; [lia|].
      exists 0%N. split; [reflexivity|]. split; [exact S0|]. split; [symmetry; exact met_0|]. split; [|left; lia].
      intros c' Sc' Hne. destruct (S1 c' Sc'); [lia|contradiction].
    + change 0 with (Z.of_N 0) at 1. rewrite metric_ok, met_0 by assumption. cbn [bind]. eexists. split; [reflexivity|].
      destruct (Z.ltb_spec (mt c) 0).
      * split; [lia|]. split; [lia|]. exists 0%N. split; [reflexivity|]. split; [exact S0|]. split; [symmetry; exact met_0|]. split; [|left; lia].
        intros c' Sc' Hne. destruct (S1 c' Sc') as [H'|H']; [|contradiction]. assert (c' = c) by lia. subst. lia.
      * cbn [Z.ltb Z.compare]. split; [lia|]. split; [lia|]. exists c. split; [reflexivity|]. split; [exact Sc|]. split; [reflexivity|]. split.
        -- intros c' Sc' Hne. destruct (S1 c' Sc') as [H'|H']; [assert (c' = c) by lia; contradiction|]. subst c'. rewrite met_0. lia.
        -- right. exists 0%N. split; [exact S0|]. split; [lia|exact met_0].
Qed.
Lemma soft_ml : (k <= 4)%nat -> exists r, sb_soft n k t par err soft = Ok r /\
  ((exists c, r = Z.of_N c /\ cwd c /\ forall c', cwd c' -> c' <> c -> mt c' < mt c) \/
   (r = -1 /\ forall c, ~ (cwd c /\ forall c', cwd c' -> c' <> c -> mt c' < mt c))).
Proof.
  intros Hk4. unfold sb_soft. rewrite hard_decisions. cbn [bind].
  destruct (hard_dec (signs n) (signs_lt n)) as (w0 & E0 & R0). rewrite E0. cbn [bind].
  assert (C0 : candidate w0) by (destruct R0 as [(c & -> & HC & _)|(-> & _)]; [right; exists c; auto|left; reflexivity]).
  destruct (metric_cand w0 C0) as (b0 & Eb & HM). rewrite Eb. cbn [bind].
  replace (4 <? k)%nat with false by lia. replace (k <=? 4)%nat with true by lia. cbn [bind].
  rewrite for_up_head by apply pow2_pos.
  destruct (enc_step 0 (fun h => sb_update n soft h (w0, b0, -2)) (pow2_pos k)) as (z & HZ & Hz & E). rewrite E.
  assert (z = 0%N) by (apply (codeword_msg n k g Hk Hn Hp HG); [exact HZ|exact cwd_0|rewrite Hz, N.shiftr_0_l; reflexivity]). subst z.
  destruct (mlinv_first w0 b0 HM) as (s1 & E1 & I1). change (Z.of_N 0) with 0. rewrite E1. cbn [bind].
  edestruct (for_up_inv (fun i s => mlinv w0 i s)) as ([[word best] next] & E2 & I2).
  4: { rewrite E2. cbn [bind]. eexists. split; [reflexivity|]. destruct I2 as (B0 & NB & c & -> & Sc & -> & Oth & Att).
       assert (SA : forall c', cwd c' -> seen w0 (2 ^ k) c').
       { intros c' HC'. split; [exact HC'|right]. rewrite pow2_of_nat. apply (codeword_encode n k g Hk Hn Hp HG par c' HPar HC'). }
       destruct (Z.eqb_spec (mt c) next) as [E3|E3].
       - right. split; [reflexivity|]. intros d (HD & Ud). destruct Att as [H|(c' & H1 & H2 & H3)]; [lia|].
         destruct (N.eq_dec d c) as [->|Hdc].
         + specialize (Ud c' (proj1 H1) H2). lia.
         + specialize (Ud c (proj1 Sc) ltac:(congruence)). specialize (Oth d (SA d HD) Hdc). lia.
       - left. exists c. split; [reflexivity|]. split; [exact (proj1 Sc)|]. intros c' HC' Hne. specialize (Oth c' (SA c' HC') Hne). lia. }
  - pose proof (pow2_pos k). lia.
  - intros i s Hi Is. cbv beta. destruct (enc_step i (fun h => sb_update n soft h s) ltac:(lia)) as (c & HC & Hc & E2). rewrite E2.
    apply mlinv_step; assumption.
  - exact I1.
Qed.
(** a hard decision that is the strictly best codeword is kept *)
Lemma soft_keeps c : cwd c -> 0 <= mt c -> (forall c', cwd c' -> c' <> c -> mt c' < mt c) ->
  sb_hard n k par err (Z.of_N (signs n)) = Ok (Z.of_N c) -> sb_soft n k t par err soft = Ok (Z.of_N c).
Proof.
  intros HC H0 Hbest EH. set (J := fun (s : Z * Z * Z) => let '(word, best, next) := s in word = Z.of_N c /\ best = mt c /\ next < best).
  assert (ST : forall h s, candidate h -> J s -> exists s', sb_update n soft h s = Ok s' /\ J s').
  { intros h [[word best] next] Hh (-> & -> & HN). unfold sb_update. destruct (Z.eqb_spec h (Z.of_N c)) as [E|E].
    { eexists. split; [reflexivity|]. repeat split. exact HN. }
    destruct (metric_cand h Hh) as (m & Em & HM). rewrite Em. cbn [bind]. eexists. split; [reflexivity|].
    assert (m < mt c). { destruct HM as [(_ & ->)|(c' & -> & HC' & ->)]; [lia|]. apply Hbest; [exact HC'|congruence]. }
    destruct (Z.ltb_spec (mt c) m); [lia|]. destruct (next <? m); repeat split; lia. }
  unfold sb_soft. rewrite hard_decisions. cbn [bind]. rewrite EH. cbn [bind]. rewrite metric_ok by assumption. cbn [bind].
  assert (W0 : J (Z.of_N c, mt c, -2)) by (repeat split; lia).
  assert (exists s, (if (4 <? k)%nat then
          worst <- sb_worst n t soft ;;
          for_up 1 (2 ^ t) (fun j s =>
            tmp <- for_up 0 t (fun i tmp => w <- rd worst i ;; x <- shl (Z.land (Z.shiftr (Z.of_nat j) (Z.of_nat i)) 1) (Z.to_nat w) ;; Ok (Z.lor tmp x)) 0 ;;
            dec <- sb_hard n k par err (Z.lxor (Z.of_N (signs n)) tmp) ;;
            sb_update n soft dec s) (Z.of_N c, mt c, -2)
        else Ok (Z.of_N c, mt c, -2)) = Ok s /\ J s) as (s1 & E1 & W1).
  { destruct (4 <? k)%nat; [|eauto]. destruct worst_ok as (w & Ew & Lw & Fw). rewrite Ew. cbn [bind].
    edestruct (for_up_inv (fun (_ : nat) s => J s)) as (s & E & W).
    4: { exists s. split; [exact E|exact W]. }
    - pose proof (pow2_pos t). lia.
    - intros j s Hj Ws. cbv beta. destruct (flips_ok w j Lw Fw) as (y & Ey & By). rewrite Ey. cbn [bind]. rewrite Z_lxor_N.
      destruct (hard_dec (N.lxor (signs n) y)) as (h & Eh & Rh); [apply lxor_lt; [apply signs_lt|exact By]|]. rewrite Eh. cbn [bind].
      apply ST; [|exact Ws]. destruct Rh as [(c' & -> & HC' & _)|(-> & _)]; [right; exists c'; auto|left; reflexivity].
    - exact W0. }
  rewrite E1. cbn [bind].
  assert (exists s, (if (k <=? 4)%nat then
          for_up 0 (2 ^ k) (fun msg s => x <- shl (Z.of_nat msg) (n - k) ;; p <- rduZ' par (Z.of_nat msg) ;; sb_update n soft (Z.lor x p) s) s1
        else Ok s1) = Ok s /\ J s) as ([[word best] next] & E2 & -> & -> & HN).
  { destruct (k <=? 4)%nat; [|eauto].
    edestruct (for_up_inv (fun (_ : nat) s => J s)) as (s & E & W).
    4: { exists s. split; [exact E|exact W]. }
    - lia.
    - intros msg s Hm Ws. cbv beta. destruct (enc_step msg (fun h => sb_update n soft h s) ltac:(lia)) as (c' & HC' & _ & E). rewrite E.
      apply ST; [right; exists c'; auto|exact Ws].
    - exact W1. }
  rewrite E2. cbn [bind]. destruct (Z.eqb_spec (mt c) next); [lia|]. reflexivity.
Qed.
End Soft.
