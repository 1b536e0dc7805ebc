(** The decoders of Model_wht: general and unrolled. *)
From Coq Require Import ZifyBool ZifyNat ZifyN.
From Verif Require Import Cpp Lib_list Model_wht Spec_wht Lib_wht Proof_wht.
Local Open Scope Z_scope.

Lemma int8_nth code i : Forall int8 code -> Z.abs (nth i code 0) <= 128.
Proof.
  intros H. destruct (Nat.lt_ge_cases i (length code)) as [L|L].
  - assert (B : int8 (nth i code 0)) by (apply (proj1 (Forall_nth int8 code) H); exact L). unfold int8 in B. lia.
  - rewrite nth_overflow by exact L. cbn. lia.
Qed.
Lemma zsum_full_bound n j c : (n <= 23)%nat -> (forall i, Z.abs (c i) <= 128) -> Z.abs (zsum (2 ^ n) (fun t => wn j t * c t)) <= 1073741824.
Proof.
  intros Hn Hc. eapply Z.le_trans; [apply (zsum_bound _ _ 128)|].
  - intros i _. unfold wn. rewrite Z.abs_mul, walsh_abs. specialize (Hc i). lia.
  - rewrite Nat2Z.inj_pow. assert (Z.of_nat 2 ^ Z.of_nat n <= 2 ^ 23) by (apply Z.pow_le_mono_r; lia). change (2 ^ 23) with 8388608 in *. lia.
Qed.

(** ** Hadamard *)
Definition hv (n : nat) (code : list Z) (j : nat) : Z := zsum (2 ^ n) (fun t => wn j t * nth t code 0).
Lemma had_dot K code m : (1 <= K)%nat -> length code = (2 ^ (K - 1))%nat -> (m < 2 ^ N.of_nat K)%N ->
  dot (hadamard_word K m) code = (if N.testbit m (N.of_nat (K - 1)) then -1 else 1) * hv (K - 1) code (N.to_nat (m mod 2 ^ N.of_nat (K - 1))).
Proof.
  intros HK HL Hm. unfold hadamard_word. rewrite dot_word by exact HL. unfold hv. rewrite <- zsum_scale. apply zsum_ext. intros i Hi.
  unfold wn. rewrite N2Nat.id. lia.
Qed.
(** messages as (sign, index) *)
Lemma had_msg K (b : bool) j : (1 <= K)%nat -> (j < 2 ^ (K - 1))%nat ->
  let m := (N.of_nat j + (if b then 2 ^ N.of_nat (K - 1) else 0))%N in
  (m < 2 ^ N.of_nat K)%N /\ N.testbit m (N.of_nat (K - 1)) = b /\ N.to_nat (m mod 2 ^ N.of_nat (K - 1)) = j.
Proof.
  intros HK Hj. cbv zeta.
  assert (PK : (2 ^ N.of_nat K = 2 * 2 ^ N.of_nat (K - 1))%N) by (rewrite <- N.pow_succ_r'; f_equal; lia).
  assert (Hj' : (N.of_nat j < 2 ^ N.of_nat (K - 1))%N) by (rewrite <- pow2_of_nat; lia).
  split; [destruct b; lia|]. destruct b.
  - split.
    + rewrite testbit_add_pow2, N.eqb_refl, (testbit_high (N.of_nat (K - 1))) by (assumption || lia). reflexivity.
    + rewrite <- (N.mul_1_l (2 ^ N.of_nat (K - 1))) at 1. rewrite N.mod_add by (apply N.pow_nonzero; discriminate).
      rewrite N.mod_small by exact Hj'. lia.
  - rewrite N.add_0_r. split; [apply (testbit_high (N.of_nat (K - 1))); [exact Hj'|lia]|]. rewrite N.mod_small by exact Hj'. lia.
Qed.
Lemma had_msg_inv K m : (1 <= K)%nat -> (m < 2 ^ N.of_nat K)%N ->
  m = (N.of_nat (N.to_nat (m mod 2 ^ N.of_nat (K - 1))) + (if N.testbit m (N.of_nat (K - 1)) then 2 ^ N.of_nat (K - 1) else 0))%N /\
  (N.to_nat (m mod 2 ^ N.of_nat (K - 1)) < 2 ^ (K - 1))%nat.
Proof.
  intros HK Hm. assert (PK : (2 ^ N.of_nat K = 2 * 2 ^ N.of_nat (K - 1))%N) by (rewrite <- N.pow_succ_r'; f_equal; lia).
  assert (E : N.of_nat (2 ^ (K - 1)) = (2 ^ N.of_nat (K - 1))%N) by apply pow2_of_nat.
  rewrite N2Nat.id, N.testbit_eqb. set (q := (2 ^ N.of_nat (K - 1))%N) in *.
  assert (Hq : (q <> 0)%N) by (apply N.pow_nonzero; discriminate). pose proof (N.div_mod' m q) as D. pose proof (N.mod_lt m q Hq) as R.
  assert (H0 : (m / q < 2)%N) by (apply N.div_lt_upper_bound; lia).
  revert D H0 R. generalize (m mod q)%N. generalize (m / q)%N. intros d r D Hd R. split; [|lia].
  assert (d = 0 \/ d = 1)%N as [-> | ->] by lia; [change (0 mod 2 =? 1)%N with false|change (1 mod 2 =? 1)%N with true]; cbv iota; lia.
Qed.

Lemma had_search_ml K code sum : (1 <= K <= 24)%nat -> length code = (2 ^ (K - 1))%nat -> Forall int8 code ->
  holds (2 ^ (K - 1)) (hv (K - 1) code) sum ->
  exists r, had_search (2 ^ (K - 1)) sum = Ok r /\ ml_answer (hadamard_word K) (2 ^ N.of_nat K) code r.
Proof.
  intros HK HL HB H. set (v := hv (K - 1) code) in *.
  destruct (had_search_ok (K - 1) v sum) as (r & E & A).
  - lia.
  - exact H.
  - intros i _. apply zsum_full_bound; [lia|]. intros j. apply int8_nth. exact HB.
  - exists r. split; [exact E|].
    assert (DOT : forall (b : bool) (j : nat), (j < 2 ^ (K - 1))%nat -> dot (hadamard_word K (N.of_nat j + (if b then 2 ^ N.of_nat (K - 1) else 0))) code = (if b : bool then -1 else 1) * v j).
    { intros b j Hj. destruct (had_msg K b j ltac:(lia) Hj) as (M1 & M2 & M3). rewrite had_dot by (assumption || lia). rewrite M2, M3. reflexivity. }
    destruct A as [(j & (Hj & Pj & Uj) & ->)|(-> & No)].
    + left. exists (N.of_nat j + (if (v j <? 0)%Z then 2 ^ N.of_nat (K - 1) else 0))%N. split.
      { pose proof (pow2_of_nat (K - 1)). destruct (v j <? 0); cbn [Z.b2z]; lia. }
      destruct (had_msg K (v j <? 0) j ltac:(lia) Hj) as (M1 & M2 & M3). split; [exact M1|].
      intros m' Hm' Hne. destruct (had_msg_inv K m' ltac:(lia) Hm') as (Em & Hjm).
      set (j' := N.to_nat (m' mod 2 ^ N.of_nat (K - 1))) in *. set (b' := N.testbit m' (N.of_nat (K - 1))) in *. clearbody j' b'.
      rewrite Em. rewrite !DOT by assumption.
      destruct (Nat.eq_dec j' j) as [->|Hj'].
      * assert (b' <> (v j <? 0)) by (intros ->; apply Hne; exact Em). destruct (Z.ltb_spec (v j) 0), b'; try congruence; lia.
      * specialize (Uj j' Hjm Hj'). cbv beta in Uj. destruct (Z.ltb_spec (v j) 0), b'; lia.
    + right. split; [reflexivity|]. intros m (Hm & Um). destruct (had_msg_inv K m ltac:(lia) Hm) as (Em & Hjm).
      set (j := N.to_nat (m mod 2 ^ N.of_nat (K - 1))) in *. set (b := N.testbit m (N.of_nat (K - 1))) in *. clearbody j b.
      apply (No j). split; [exact Hjm|].
      assert (QP : (2 ^ N.of_nat (K - 1) <> 0)%N) by (apply N.pow_nonzero; discriminate).
      assert (P : 0 < (if b then -1 else 1) * v j).
      { destruct (had_msg K (negb b) j ltac:(lia) Hjm) as (M1 & M2 & M3).
        specialize (Um _ M1 ltac:(rewrite Em; destruct b; cbn [negb]; lia)). rewrite Em, !DOT in Um by assumption.
        destruct b; cbn [negb] in Um; lia. }
      split; [destruct b; lia|]. intros k Hk Hne.
      assert (Q : forall (b' : bool), (if b' : bool then -1 else 1) * v k < (if b then -1 else 1) * v j).
      { intros b'. destruct (had_msg K b' k ltac:(lia) Hk) as (M1 & M2 & M3). specialize (Um _ M1).
        rewrite Em, !DOT in Um by assumption. apply Um. intros Ek.
        assert (k = j); [|contradiction]. apply (f_equal (fun x => (x mod 2 ^ N.of_nat (K - 1))%N)) in Ek.
        apply (f_equal N.to_nat) in Ek. destruct (had_msg K b j ltac:(lia) Hjm) as (_ & _ & M3'). rewrite M3, M3' in Ek. exact Ek. }
      pose proof (Q true). pose proof (Q false). destruct b; lia.
Qed.

Lemma had_decode_gen_ok K code : (2 <= K <= 24)%nat -> length code = (2 ^ (K - 1))%nat -> Forall int8 code ->
  exists r, had_decode_gen K code = Ok r /\ ml_answer (hadamard_word K) (2 ^ N.of_nat K) code r.
Proof.
  intros HK HL HB. unfold had_decode_gen.
  assert (EN : (2 ^ (K - 1))%nat = (2 ^ (K - 2) * 2)%nat) by (replace (K - 1)%nat with (S (K - 2)) by lia; cbn [Nat.pow]; lia).
  pose proof (pow2_pos (K - 2)) as Hp.
  set (c := fun i => nth i code 0).
  assert (L1 : exists sum, for_step 0 (2 ^ (K - 1) - 1) 2 (fun i sum => a <- rd code i ;; b <- rd code (i + 1) ;; x <- chk (a + b) ;;
     sum <- wru sum i x ;; y <- chk (a - b) ;; wru sum (i + 1) y) (uninit Z (2 ^ (K - 1))) = Ok sum /\ holds (2 ^ (K - 1)) (stage c 1) sum).
  { assert (F : forall T (body : nat -> T -> res T) s, for_step 0 (2 ^ (K - 1) - 1) 2 body s = for_step 0 (2 ^ (K - 2) * 2) 2 body s).
    { intros. unfold for_step. rewrite EN. f_equal. rewrite !Nat.sub_0_r.
      replace (2 ^ (K - 2) * 2 - 1 + (2 - 1))%nat with (2 ^ (K - 2) * 2)%nat by lia.
      rewrite Nat.div_mul by lia. rewrite Nat.add_comm, Nat.div_add by lia. reflexivity. }
    rewrite F.
    edestruct (for_step_inv (fun k sm => length sm = (2 ^ (K - 1))%nat /\ forall j, (j < k * 2)%nat -> nth j sm None = Some (stage c 1 j))) as (sm & E & L & V).
    4: { exists sm. split; [exact E|]. split; [exact L|]. intros j Hj. apply V. lia. }
    - lia.
    - intros k sm Hk (L & V). cbv beta.
      rewrite (rd_nth code _ 0) by lia. cbn [bind]. rewrite (rd_nth code _ 0) by lia. cbn [bind].
      pose proof (int8_nth code (k * 2) HB). pose proof (int8_nth code (k * 2 + 1) HB).
      rewrite chk_ok by lia. cbn [bind]. unfold wru. rewrite wr_Ok by lia. cbn [bind]. rewrite chk_ok by lia. cbn [bind].
      rewrite wr_Ok by (rewrite length_upd; lia). eexists. split; [reflexivity|]. rewrite !length_upd. split; [exact L|].
      intros j Hj. rewrite !nth_upd, length_upd. unfold stage.
      destruct (Nat.eqb_spec (k * 2 + 1) j) as [<-|N1].
      + destruct (Nat.ltb_spec (k * 2 + 1) (length sm)); [|lia]. cbn [andb]. change (2 ^ 1)%nat with 2%nat. rewrite div_block, mod_block by lia.
        unfold wblock. cbn [Nat.pow Nat.mul Nat.add zsum]. change (wn 1 0) with 1. change (wn 1 1) with (-1). unfold c. f_equal.
        replace (k * 2 + 0)%nat with (k * 2)%nat by lia. lia.
      + cbn [andb]. destruct (Nat.eqb_spec (k * 2) j) as [<-|N2].
        * destruct (Nat.ltb_spec (k * 2) (length sm)); [|lia]. cbn [andb]. change (2 ^ 1)%nat with 2%nat.
          replace (k * 2 / 2)%nat with ((k * 2 + 0) / 2)%nat by (f_equal; lia).
          replace ((k * 2) mod 2)%nat with ((k * 2 + 0) mod 2)%nat by (f_equal; lia). rewrite div_block, mod_block by lia.
          unfold wblock. cbn [Nat.pow Nat.mul Nat.add zsum]. change (wn 0 0) with 1. change (wn 0 1) with 1. unfold c. f_equal.
          replace (k * 2 + 0)%nat with (k * 2)%nat by lia. lia.
        * cbn [andb]. apply V. lia.
    - split; [unfold uninit; apply repeat_length|intros; lia]. }
  destruct L1 as (sum & E & H). rewrite E. cbn [bind].
  destruct (stages_ok (K - 1) c sum) as (sum' & E' & H').
  { intros i. apply int8_nth. exact HB. }
  { lia. }
  { exact H. }
  rewrite E'. cbn [bind]. apply had_search_ml; try assumption; lia.
Qed.

(** the unrolled classes *)
Lemma chks_ok l : Forall (fun x => -2147483648 <= x <= 2147483647) l -> chks l = Ok l.
Proof. induction l as [|x l IH]; intros H; [reflexivity|]. inversion H; subst. cbn [chks]. rewrite chk_ok by assumption. cbn [bind]. rewrite IH by assumption. reflexivity. Qed.

Ltac explode code HL HB :=
  repeat (match type of HL with length ?l = S ?n => let c := fresh "c" in let l' := fresh "l" in destruct l as [|c l']; [discriminate HL|];
            apply (f_equal pred) in HL; cbn [length pred] in HL; inversion HB as [|? ? ? HB']; clear HB; rename HB' into HB; subst end);
  match type of HL with length ?l = O => destruct l; [|discriminate HL] end.
Ltac run_chks := unfold el; cbn [nth]; rewrite chks_ok; [cbn [bind nth]|unfold int8, el in *; cbn [nth]; repeat (apply Forall_cons; [lia|]); apply Forall_nil].
Ltac lanes := split; [reflexivity|]; intros i Hi; repeat (destruct i as [|i]; [cbn [nth map]; f_equal; cbv -[Z.add Z.mul Z.sub Z.opp]; ring|]); cbn in Hi; lia.

Lemma had_decode2_ok code : length code = 2%nat -> Forall int8 code ->
  exists r, had_decode2 code = Ok r /\ ml_answer (hadamard_word 2) 4 code r.
Proof.
  intros HL HB. pose proof HB as HB0. pose proof HL as HL0.
  explode code HL HB. destruct (had_search_ml 2 [c; c0] (map Some [c + c0; c - c0])) as (r & E & A); [lia|reflexivity|exact HB0|unfold hv; lanes|].
  exists r. split; [|exact A]. rewrite <- E. clear E A. unfold int8 in *.
  unfold had_decode2, had_search, abs_int, el. cbn [length Nat.leb require bind nth].
  repeat (rewrite chk_ok by lia; cbn [bind]). change (2 ^ (2 - 1))%nat with 2%nat. unfold for_up. cbn [Nat.sub loop map]. unfold rdu. cbn [nth_error bind].
  repeat (rewrite chk_ok by (try destruct (_ <? 0); cbn [Z.b2z]; lia); cbn [bind]). unfold wht_update.
  repeat match goal with |- context [(?a <? ?b)] => destruct (Z.ltb_spec a b) | |- context [(?a =? ?b)] => destruct (Z.eqb_spec a b) end; cbn [Z.b2z]; try lia; try reflexivity.
Qed.
Lemma had_decode3_ok code : length code = 4%nat -> Forall int8 code ->
  exists r, had_decode3 code = Ok r /\ ml_answer (hadamard_word 3) 8 code r.
Proof.
  intros HL HB. pose proof HB as HB0. pose proof HL as HL0. unfold had_decode3. rewrite HL. cbn [Nat.leb require bind].
  explode code HL HB. run_chks. run_chks.
  apply (had_search_ml 3); [lia|reflexivity|exact HB0|]. unfold hv. lanes.
Qed.
Lemma had_decode4_ok code : length code = 8%nat -> Forall int8 code ->
  exists r, had_decode4 code = Ok r /\ ml_answer (hadamard_word 4) 16 code r.
Proof.
  intros HL HB. pose proof HB as HB0. pose proof HL as HL0. unfold had_decode4. rewrite HL. cbn [Nat.leb require bind].
  explode code HL HB. run_chks. run_chks. run_chks.
  apply (had_search_ml 4); [lia|reflexivity|exact HB0|]. unfold hv. lanes.
Qed.
Lemma had_decode_ok K code : (2 <= K <= 24)%nat -> length code = (2 ^ (K - 1))%nat -> Forall int8 code ->
  exists r, had_decode K code = Ok r /\ ml_answer (hadamard_word K) (2 ^ N.of_nat K) code r.
Proof.
  intros HK HL HB. unfold had_decode. destruct K as [|[|[|[|[|K]]]]]; try lia.
  - apply had_decode2_ok; assumption.
  - apply had_decode3_ok; assumption.
  - apply had_decode4_ok; assumption.
  - apply had_decode_gen_ok; assumption.
Qed.

(** ** simplex *)
Definition sc (code : list Z) (t : nat) : Z := match t with O => 0 | S t => nth t code 0 end.
Definition sv (K : nat) (code : list Z) (j : nat) : Z := zsum (2 ^ K) (fun t => wn j t * sc code t).
Lemma spx_dot K code m : length code = (2 ^ K - 1)%nat -> dot (simplex_word K m) code = sv K code (N.to_nat m).
Proof.
  intros HL. pose proof (pow2_pos K). unfold simplex_word. rewrite dot_word by exact HL. unfold sv.
  replace (2 ^ K)%nat with (S (2 ^ K - 1)) at 2 by lia. rewrite zsum_shift. unfold wn. cbn [sc]. rewrite N2Nat.id, Z.mul_0_r.
  rewrite Z.add_0_l. apply zsum_ext. intros i Hi. replace (i + 1)%nat with (S i) by lia. reflexivity.
Qed.
Lemma sc_bound code i : Forall int8 code -> Z.abs (sc code i) <= 128.
Proof. intros H. destruct i; cbn [sc]; [cbn; lia|]. apply int8_nth. exact H. Qed.
Lemma sv_sum K code : zsum (2 ^ K) (sv K code) = 0.
Proof.
  unfold sv. rewrite zsum_swap. apply zsum_0. intros t Ht. destruct t as [|t].
  - apply zsum_0. intros i Hi. cbn [sc]. lia.
  - rewrite (zsum_ext _ _ (fun i => sc code (S t) * wn i (S t))) by (intros; lia). rewrite zsum_scale, wn_sum by lia. lia.
Qed.
Lemma spx_search_ml K code sum : (1 <= K <= 23)%nat -> length code = (2 ^ K - 1)%nat -> Forall int8 code ->
  holds (2 ^ K) (sv K code) sum ->
  exists r, spx_search (2 ^ K) sum = Ok r /\ ml_answer (simplex_word K) (2 ^ N.of_nat K) code r.
Proof.
  intros HK HL HB H. destruct (spx_search_ok (2 ^ K) _ sum H) as (r & E & A). exists r. split; [exact E|].
  pose proof (pow2_of_nat K) as EP.
  destruct A as [(j & (Hj & Pj & Uj) & ->)|(-> & No)].
  - left. exists (N.of_nat j). split; [lia|]. split; [lia|]. intros m' Hm' Hne. rewrite !spx_dot by exact HL. rewrite Nat2N.id. apply Uj; lia.
  - right. split; [reflexivity|]. intros m (Hm & Um). apply (No (N.to_nat m)).
    assert (U : forall k, (k < 2 ^ K)%nat -> k <> N.to_nat m -> sv K code k < sv K code (N.to_nat m)).
    { intros k Hk Hne. specialize (Um (N.of_nat k) ltac:(lia) ltac:(lia)). rewrite !spx_dot in Um by exact HL. rewrite Nat2N.id in Um. exact Um. }
    split; [lia|]. split; [|exact U].
    destruct (Z.lt_ge_cases 0 (sv K code (N.to_nat m))) as [C|C]; [exact C|exfalso].
    assert (H2 : (2 <= 2 ^ K)%nat) by (pose proof (Nat.pow_le_mono_r 2 1 K ltac:(lia) ltac:(lia)); cbn in *; lia).
    set (k := if (N.to_nat m =? 0)%nat then 1%nat else 0%nat).
    assert (Hk : (k < 2 ^ K)%nat /\ k <> N.to_nat m) by (unfold k; destruct (Nat.eqb_spec (N.to_nat m) 0); lia). destruct Hk as (Hk & Hkm).
    assert (zsum (2 ^ K) (sv K code) < 0).
    { apply (zsum_neg _ _ k); [|exact Hk|].
      - intros i Hi. destruct (Nat.eq_dec i (N.to_nat m)) as [->|Hne]; [lia|]. specialize (U i Hi Hne). lia.
      - specialize (U k Hk Hkm). lia. }
    rewrite sv_sum in *. lia.
Qed.

Lemma spx_decode_gen_ok K code : (2 <= K <= 23)%nat -> length code = (2 ^ K - 1)%nat -> Forall int8 code ->
  exists r, spx_decode_gen K code = Ok r /\ ml_answer (simplex_word K) (2 ^ N.of_nat K) code r.
Proof.
  intros HK HL HB. unfold spx_decode_gen. pose proof (pow2_pos (K - 2)) as Hp.
  assert (EN : (2 ^ K)%nat = (2 ^ (K - 1) * 2)%nat) by (replace K with (S (K - 1)) at 1 by lia; cbn [Nat.pow]; lia).
  assert (EN2 : (2 ^ (K - 1))%nat = (2 ^ (K - 2) * 2)%nat) by (replace (K - 1)%nat with (S (K - 2)) by lia; cbn [Nat.pow]; lia).
  set (n := (2 ^ K)%nat) in *. set (k1 := (2 ^ (K - 1))%nat) in *.
  rewrite (rd_nth code 0 0) by lia. cbn [bind]. pose proof (int8_nth code 0 HB) as B0.
  unfold wru at 1 2. rewrite wr_Ok by (unfold uninit; rewrite repeat_length; lia). cbn [bind]. rewrite chk_ok by lia. cbn [bind].
  rewrite wr_Ok by (unfold uninit; rewrite length_upd, repeat_length; lia). cbn [bind].
  set (s0 := upd (upd (uninit Z n) 0 (Some (nth 0 code 0))) 1 (Some (- nth 0 code 0))).
  set (c := sc code).
  assert (L0 : length s0 = n /\ forall j, (j < 2)%nat -> nth j s0 None = Some (stage c 1 j)).
  { unfold s0, uninit. rewrite !length_upd, repeat_length. split; [reflexivity|]. intros j Hj. rewrite !nth_upd, length_upd, repeat_length.
    destruct j as [|[|j]]; [| |lia].
    - cbn [Nat.eqb andb]. destruct (Nat.ltb_spec 0 n); [|lia]. unfold stage. change (2 ^ 1)%nat with 2%nat. cbn [Nat.div Nat.divmod fst Nat.modulo snd Nat.sub].
      unfold wblock. cbn [Nat.pow Nat.mul Nat.add zsum]. change (wn 0 0) with 1. change (wn 0 1) with 1. unfold c, sc. f_equal. lia.
    - cbn [Nat.eqb andb]. destruct (Nat.ltb_spec 1 n); [|lia]. unfold stage. change (2 ^ 1)%nat with 2%nat. cbn [Nat.div Nat.divmod fst Nat.modulo snd Nat.sub].
      unfold wblock. cbn [Nat.pow Nat.mul Nat.add zsum]. change (wn 1 0) with 1. change (wn 1 1) with (-1). unfold c, sc. f_equal; lia. }
  assert (L1 : exists sum, for_step 1 (n - 2) 2 (fun i sum => a <- rd code i ;; b <- rd code (i + 1) ;; x <- chk (a + b) ;;
     sum <- wru sum (i + 1) x ;; y <- chk (a - b) ;; wru sum (i + 2) y) s0 = Ok sum /\ holds n (stage c 1) sum).
  { unfold for_step. replace ((n - 2 - 1 + (2 - 1)) / 2)%nat with (k1 - 1)%nat.
    2: { replace (n - 2 - 1 + (2 - 1))%nat with ((k1 - 1) * 2)%nat by lia. rewrite Nat.div_mul by lia. reflexivity. }
    edestruct (loop_inv (fun k sm => length sm = n /\ forall j, (j < (k + 1) * 2)%nat -> nth j sm None = Some (stage c 1 j))) as (sm & E & L & V).
    3: { exists sm. split; [exact E|]. split; [exact L|]. intros j Hj. apply V. lia. }
    - intros k sm Hk (L & V). cbv beta.
      rewrite (rd_nth code _ 0) by lia. cbn [bind]. rewrite (rd_nth code _ 0) by lia. cbn [bind].
      pose proof (int8_nth code (1 + k * 2) HB). pose proof (int8_nth code (1 + k * 2 + 1) HB).
      rewrite chk_ok by lia. cbn [bind]. unfold wru. rewrite wr_Ok by lia. cbn [bind]. rewrite chk_ok by lia. cbn [bind].
      rewrite wr_Ok by (rewrite length_upd; lia). eexists. split; [reflexivity|]. rewrite !length_upd. split; [exact L|].
      intros j Hj. rewrite !nth_upd, length_upd. unfold stage.
      destruct (Nat.eqb_spec (1 + k * 2 + 2) j) as [<-|N1].
      + destruct (Nat.ltb_spec (1 + k * 2 + 2) (length sm)); [|lia]. cbn [andb]. change (2 ^ 1)%nat with 2%nat.
        replace (1 + k * 2 + 2)%nat with ((k + 1) * 2 + 1)%nat by lia. rewrite div_block, mod_block by lia.
        unfold wblock. change (2 ^ 1)%nat with 2%nat. cbn [zsum]. change (wn 1 0) with 1. change (wn 1 1) with (-1). unfold c. f_equal.
        replace ((k + 1) * 2 + 0)%nat with (S (1 + k * 2)) by lia. replace ((k + 1) * 2 + 1)%nat with (S (1 + k * 2 + 1)) by lia. cbn [sc]. lia.
      + cbn [andb]. destruct (Nat.eqb_spec (1 + k * 2 + 1) j) as [<-|N2].
        * destruct (Nat.ltb_spec (1 + k * 2 + 1) (length sm)); [|lia]. cbn [andb]. change (2 ^ 1)%nat with 2%nat.
          replace ((1 + k * 2 + 1) / 2)%nat with (((k + 1) * 2 + 0) / 2)%nat by (f_equal; lia).
          replace ((1 + k * 2 + 1) mod 2)%nat with (((k + 1) * 2 + 0) mod 2)%nat by (f_equal; lia). rewrite div_block, mod_block by lia.
          unfold wblock. change (2 ^ 1)%nat with 2%nat. cbn [zsum]. change (wn 0 0) with 1. change (wn 0 1) with 1. unfold c. f_equal.
          replace ((k + 1) * 2 + 0)%nat with (S (1 + k * 2)) by lia. replace ((k + 1) * 2 + 1)%nat with (S (1 + k * 2 + 1)) by lia. cbn [sc]. lia.
        * cbn [andb]. apply V. lia.
    - exact L0. }
  destruct L1 as (sum & E & H). rewrite E. cbn [bind].
  destruct (stages_ok K c sum) as (sum' & E' & H').
  { intros i. apply sc_bound. exact HB. }
  { lia. }
  { exact H. }
  fold n in E'. rewrite E'. cbn [bind]. apply spx_search_ml; try assumption; lia.
Qed.
Lemma spx_decode2_ok code : length code = 3%nat -> Forall int8 code ->
  exists r, spx_decode2 code = Ok r /\ ml_answer (simplex_word 2) 4 code r.
Proof.
  intros HL HB. pose proof HB as HB0. pose proof HL as HL0. unfold spx_decode2. rewrite HL. cbn [Nat.leb require bind].
  explode code HL HB. run_chks. run_chks.
  apply (spx_search_ml 2); [lia|reflexivity|exact HB0|]. unfold sv, sc. lanes.
Qed.
Lemma spx_decode3_ok code : length code = 7%nat -> Forall int8 code ->
  exists r, spx_decode3 code = Ok r /\ ml_answer (simplex_word 3) 8 code r.
Proof.
  intros HL HB. pose proof HB as HB0. pose proof HL as HL0. unfold spx_decode3. rewrite HL. cbn [Nat.leb require bind].
  explode code HL HB. run_chks. run_chks. run_chks.
  apply (spx_search_ml 3); [lia|reflexivity|exact HB0|]. unfold sv, sc. lanes.
Qed.
Lemma spx_decode4_ok code : length code = 15%nat -> Forall int8 code ->
  exists r, spx_decode4 code = Ok r /\ ml_answer (simplex_word 4) 16 code r.
Proof.
  intros HL HB. pose proof HB as HB0. pose proof HL as HL0. unfold spx_decode4. rewrite HL. cbn [Nat.leb require bind].
  explode code HL HB. run_chks. run_chks. run_chks. run_chks.
  apply (spx_search_ml 4); [lia|reflexivity|exact HB0|]. unfold sv, sc. lanes.
Qed.
Lemma spx_decode_ok K code : (2 <= K <= 23)%nat -> length code = (2 ^ K - 1)%nat -> Forall int8 code ->
  exists r, spx_decode K code = Ok r /\ ml_answer (simplex_word K) (2 ^ N.of_nat K) code r.
Proof.
  intros HK HL HB. unfold spx_decode. destruct K as [|[|[|[|[|K]]]]]; try lia.
  - apply spx_decode2_ok; assumption.
  - apply spx_decode3_ok; assumption.
  - apply spx_decode4_ok; assumption.
  - apply spx_decode_gen_ok; assumption.
Qed.
