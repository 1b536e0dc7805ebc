(** Proofs about bitman.hh and bitstream.hh. *)
From Coq Require Import ZifyBool ZifyNat ZifyN.
From Verif Require Import Cpp Model_bits Spec_bits.
Local Open Scope nat_scope.
Ltac Zify.zify_post_hook ::= Z.div_mod_to_equations.

(** ** Bit-level lemmas over N *)
Lemma tb_shiftl a n i : N.testbit (N.shiftl a n) i = ((n <=? i)%N && N.testbit a (i - n))%bool.
Proof.
  destruct (N.leb_spec n i) as [H|H].
  - rewrite N.shiftl_spec_high' by exact H. reflexivity.
  - rewrite N.shiftl_spec_low by exact H. reflexivity.
Qed.

Lemma tb_b2n b i : N.testbit (N.b2n b) i = (b && (i =? 0)%N)%bool.
Proof. destruct b, i; reflexivity. Qed.

Lemma tb_one i : N.testbit 1 i = (i =? 0)%N.
Proof. destruct i; reflexivity. Qed.

Lemma tb_mask k i : N.testbit (N.shiftl 1 k - 1) i = (i <? k)%N.
Proof.
  replace (N.shiftl 1 k - 1)%N with (N.ones k).
  - destruct (N.ltb_spec i k); [apply N.ones_spec_low|apply N.ones_spec_high]; assumption.
  - unfold N.ones. rewrite N.sub_1_r. reflexivity.
Qed.

Lemma odd_shiftr x k : N.odd (N.shiftr x k) = N.testbit x k.
Proof. rewrite <- N.bit0_odd, N.shiftr_spec'. reflexivity. Qed.

Ltac tbits :=
  repeat first [ rewrite N.lor_spec | rewrite N.land_spec | rewrite N.ldiff_spec
               | rewrite N.lxor_spec | rewrite wrap_testbit | rewrite tb_shiftl
               | rewrite N.shiftr_spec' | rewrite tb_mask | rewrite tb_b2n
               | rewrite tb_one | rewrite N.bits_0 ].

(** ** Byte arrays *)
Lemma bytes_nth buf i : bytes buf -> (nth i buf 0 < 2 ^ 8)%N.
Proof.
  intros H. change (2 ^ 8)%N with 256%N. destruct (Nat.lt_ge_cases i (length buf)) as [L|L].
  - apply Forall_nth; assumption.
  - rewrite nth_overflow by exact L. reflexivity.
Qed.

Lemma bytes_upd buf i v : bytes buf -> (v < 256)%N -> bytes (upd buf i v).
Proof.
  intros H Hv. apply Forall_forall. intros x Hx.
  apply In_nth with (d := 0%N) in Hx. destruct Hx as (j & Hj & <-).
  rewrite nth_upd. destruct ((i =? j) && (i <? length buf))%bool; [exact Hv|].
  apply (bytes_nth buf j H).
Qed.

Lemma wrap8_byte x : (wrap 8 x < 256)%N.
Proof. apply (wrap_lt 8). Qed.

Lemma bit_of_upd buf k v i :
  k < length buf ->
  bit_of (upd buf k v) i = if k =? i / 8 then N.testbit v (N.of_nat (i mod 8)) else bit_of buf i.
Proof.
  intros H. unfold bit_of. rewrite nth_upd. apply Nat.ltb_lt in H. rewrite H, andb_true_r.
  destruct (k =? i / 8); reflexivity.
Qed.

Lemma be_bit_of_upd buf k v i :
  k < length buf ->
  be_bit_of (upd buf k v) i = if k =? i / 8 then N.testbit v (N.of_nat (7 - i mod 8)) else be_bit_of buf i.
Proof.
  intros H. unfold be_bit_of. rewrite nth_upd. apply Nat.ltb_lt in H. rewrite H, andb_true_r.
  destruct (k =? i / 8); reflexivity.
Qed.

Lemma byte_high buf k i : bytes buf -> 8 <= i -> N.testbit (nth k buf 0%N) (N.of_nat i) = false.
Proof. intros H Hi. apply (testbit_high 8); [apply bytes_nth; exact H|lia]. Qed.

(** ** bitman.hh *)
Section Bitman.
Variables (buf : list N) (pos : nat).
Hypothesis Hb : bytes buf.
Hypothesis Hp : pos < 8 * length buf.

Let Hq : Z.quot (Z.of_nat pos) 8 = Z.of_nat (pos / 8).
Proof. rewrite Z.quot_div_nonneg by lia. lia. Qed.
Let Hr : Z.rem (Z.of_nat pos) 8 = Z.of_nat (pos mod 8).
Proof. rewrite Z.rem_mod_nonneg by lia. lia. Qed.
Let Hl : pos / 8 < length buf.
Proof. lia. Qed.

Lemma get_be_bit_ok : get_be_bit buf (Z.of_nat pos) = Ok (be_bit_of buf pos).
Proof.
  unfold get_be_bit. rewrite Hq, Hr, (rdZ_nth buf _ 0%N) by lia.
  cbn [bind]. rewrite odd_shiftr. unfold be_bit_of. do 3 f_equal; lia.
Qed.

Lemma get_le_bit_ok : get_le_bit buf (Z.of_nat pos) = Ok (bit_of buf pos).
Proof.
  unfold get_le_bit. rewrite Hq, Hr. replace (0 <=? Z.of_nat (pos mod 8))%Z with true by lia.
  cbn [require bind]. rewrite (rdZ_nth buf _ 0%N) by lia.
  cbn [bind]. rewrite odd_shiftr. unfold bit_of. do 3 f_equal; lia.
Qed.

Lemma set_be_bit_ok val :
  exists buf', set_be_bit buf (Z.of_nat pos) val = Ok buf' /\ length buf' = length buf /\ bytes buf' /\
  (forall i, be_bit_of buf' i = if i =? pos then val else be_bit_of buf i) /\
  (forall k, k <> pos / 8 -> nth k buf' 0%N = nth k buf 0%N).
Proof.
  unfold set_be_bit. rewrite Hq, Hr, (rdZ_nth buf _ 0%N) by lia. cbn [bind].
  rewrite wrZ_Ok by lia. rewrite !Nat2Z.id. eexists; split; [reflexivity|].
  split; [apply length_upd|]. split; [apply bytes_upd; [exact Hb|apply wrap8_byte]|]. split.
  - intros i. rewrite be_bit_of_upd by exact Hl. tbits.
    destruct (Nat.eqb_spec i pos) as [->|Hne].
    + rewrite Nat.eqb_refl.
      replace (Z.to_N (7 - Z.of_nat (pos mod 8))) with (N.of_nat (7 - pos mod 8)) by lia.
      rewrite N.leb_refl, N.sub_diag, N.eqb_refl.
      replace (N.of_nat (7 - pos mod 8) <? 8)%N with true by lia.
      destruct val; rewrite ?andb_false_r; reflexivity.
    + destruct (Nat.eqb_spec (pos / 8) (i / 8)) as [He|He]; [|reflexivity].
      unfold be_bit_of. rewrite <- He.
      replace (N.of_nat (7 - i mod 8) - Z.to_N (7 - Z.of_nat (pos mod 8)) =? 0)%N
        with (N.of_nat (7 - i mod 8) <=? Z.to_N (7 - Z.of_nat (pos mod 8)))%N by lia.
      replace (N.of_nat (7 - i mod 8) <? 8)%N with true by lia.
      destruct (N.leb_spec (Z.to_N (7 - Z.of_nat (pos mod 8))) (N.of_nat (7 - i mod 8)));
      destruct (N.leb_spec (N.of_nat (7 - i mod 8)) (Z.to_N (7 - Z.of_nat (pos mod 8)))); try lia;
      cbn [andb orb negb]; rewrite ?andb_true_r, ?andb_false_r, ?orb_false_r; reflexivity.
  - intros k Hk. apply nth_upd_neq. auto.
Qed.

Lemma set_le_bit_ok val :
  exists buf', set_le_bit buf (Z.of_nat pos) val = Ok buf' /\ length buf' = length buf /\ bytes buf' /\
  (forall i, bit_of buf' i = if i =? pos then val else bit_of buf i) /\
  (forall k, k <> pos / 8 -> nth k buf' 0%N = nth k buf 0%N).
Proof.
  unfold set_le_bit. rewrite Hq, Hr. replace (0 <=? Z.of_nat (pos mod 8))%Z with true by lia.
  cbn [require bind]. rewrite (rdZ_nth buf _ 0%N) by lia. cbn [bind].
  rewrite wrZ_Ok by lia. rewrite !Nat2Z.id. eexists; split; [reflexivity|].
  split; [apply length_upd|]. split; [apply bytes_upd; [exact Hb|apply wrap8_byte]|]. split.
  - intros i. rewrite bit_of_upd by exact Hl. tbits.
    destruct (Nat.eqb_spec i pos) as [->|Hne].
    + rewrite Nat.eqb_refl.
      replace (Z.to_N (Z.of_nat (pos mod 8))) with (N.of_nat (pos mod 8)) by lia.
      rewrite N.leb_refl, N.sub_diag, N.eqb_refl.
      replace (N.of_nat (pos mod 8) <? 8)%N with true by lia.
      destruct val; rewrite ?andb_false_r; reflexivity.
    + destruct (Nat.eqb_spec (pos / 8) (i / 8)) as [He|He]; [|reflexivity].
      unfold bit_of. rewrite <- He.
      replace (N.of_nat (i mod 8) - Z.to_N (Z.of_nat (pos mod 8)) =? 0)%N
        with (N.of_nat (i mod 8) <=? Z.to_N (Z.of_nat (pos mod 8)))%N by lia.
      replace (N.of_nat (i mod 8) <? 8)%N with true by lia.
      destruct (N.leb_spec (Z.to_N (Z.of_nat (pos mod 8))) (N.of_nat (i mod 8)));
      destruct (N.leb_spec (N.of_nat (i mod 8)) (Z.to_N (Z.of_nat (pos mod 8)))); try lia;
      cbn [andb orb negb]; rewrite ?andb_true_r, ?andb_false_r, ?orb_false_r; reflexivity.
  - intros k Hk. apply nth_upd_neq. auto.
Qed.

Lemma xor_be_bit_ok val :
  exists buf', xor_be_bit buf (Z.of_nat pos) val = Ok buf' /\ length buf' = length buf /\ bytes buf' /\
  (forall i, be_bit_of buf' i = if i =? pos then xorb (be_bit_of buf i) val else be_bit_of buf i) /\
  (forall k, k <> pos / 8 -> nth k buf' 0%N = nth k buf 0%N).
Proof.
  unfold xor_be_bit. rewrite Hq, Hr, (rdZ_nth buf _ 0%N) by lia. cbn [bind].
  rewrite wrZ_Ok by lia. rewrite !Nat2Z.id. eexists; split; [reflexivity|].
  split; [apply length_upd|]. split; [apply bytes_upd; [exact Hb|apply wrap8_byte]|]. split.
  - intros i. rewrite be_bit_of_upd by exact Hl. tbits.
    destruct (Nat.eqb_spec i pos) as [->|Hne].
    + rewrite Nat.eqb_refl.
      replace (Z.to_N (7 - Z.of_nat (pos mod 8))) with (N.of_nat (7 - pos mod 8)) by lia.
      rewrite N.leb_refl, N.sub_diag, N.eqb_refl.
      replace (N.of_nat (7 - pos mod 8) <? 8)%N with true by lia.
      rewrite ?andb_true_r. reflexivity.
    + destruct (Nat.eqb_spec (pos / 8) (i / 8)) as [He|He]; [|reflexivity].
      unfold be_bit_of. rewrite <- He.
      replace (N.of_nat (7 - i mod 8) - Z.to_N (7 - Z.of_nat (pos mod 8)) =? 0)%N
        with (N.of_nat (7 - i mod 8) <=? Z.to_N (7 - Z.of_nat (pos mod 8)))%N by lia.
      replace (N.of_nat (7 - i mod 8) <? 8)%N with true by lia.
      destruct (N.leb_spec (Z.to_N (7 - Z.of_nat (pos mod 8))) (N.of_nat (7 - i mod 8)));
      destruct (N.leb_spec (N.of_nat (7 - i mod 8)) (Z.to_N (7 - Z.of_nat (pos mod 8)))); try lia;
      cbn [andb orb negb]; rewrite ?andb_true_r, ?andb_false_r, ?xorb_false_r; reflexivity.
  - intros k Hk. apply nth_upd_neq. auto.
Qed.

Lemma xor_le_bit_ok val :
  exists buf', xor_le_bit buf (Z.of_nat pos) val = Ok buf' /\ length buf' = length buf /\ bytes buf' /\
  (forall i, bit_of buf' i = if i =? pos then xorb (bit_of buf i) val else bit_of buf i) /\
  (forall k, k <> pos / 8 -> nth k buf' 0%N = nth k buf 0%N).
Proof.
  unfold xor_le_bit. rewrite Hq, Hr. replace (0 <=? Z.of_nat (pos mod 8))%Z with true by lia.
  cbn [require bind]. rewrite (rdZ_nth buf _ 0%N) by lia. cbn [bind].
  rewrite wrZ_Ok by lia. rewrite !Nat2Z.id. eexists; split; [reflexivity|].
  split; [apply length_upd|]. split; [apply bytes_upd; [exact Hb|apply wrap8_byte]|]. split.
  - intros i. rewrite bit_of_upd by exact Hl. tbits.
    destruct (Nat.eqb_spec i pos) as [->|Hne].
    + rewrite Nat.eqb_refl.
      replace (Z.to_N (Z.of_nat (pos mod 8))) with (N.of_nat (pos mod 8)) by lia.
      rewrite N.leb_refl, N.sub_diag, N.eqb_refl.
      replace (N.of_nat (pos mod 8) <? 8)%N with true by lia.
      rewrite ?andb_true_r. reflexivity.
    + destruct (Nat.eqb_spec (pos / 8) (i / 8)) as [He|He]; [|reflexivity].
      unfold bit_of. rewrite <- He.
      replace (N.of_nat (i mod 8) - Z.to_N (Z.of_nat (pos mod 8)) =? 0)%N
        with (N.of_nat (i mod 8) <=? Z.to_N (Z.of_nat (pos mod 8)))%N by lia.
      replace (N.of_nat (i mod 8) <? 8)%N with true by lia.
      destruct (N.leb_spec (Z.to_N (Z.of_nat (pos mod 8))) (N.of_nat (i mod 8)));
      destruct (N.leb_spec (N.of_nat (i mod 8)) (Z.to_N (Z.of_nat (pos mod 8)))); try lia;
      cbn [andb orb negb]; rewrite ?andb_true_r, ?andb_false_r, ?xorb_false_r; reflexivity.
  - intros k Hk. apply nth_upd_neq. auto.
Qed.
End Bitman.

(** Two byte arrays with the same bits are equal. *)
Lemma byte_array_ext a b :
  bytes a -> bytes b -> length a = length b ->
  (forall i, i < 8 * length a -> be_bit_of a i = be_bit_of b i) -> a = b.
Proof.
  intros Ha Hb Hl H. apply (list_ext a b 0%N Hl). intros k Hk. apply N.bits_inj. intros j.
  destruct (N.lt_ge_cases j 8) as [L|L].
  - specialize (H (8 * k + (7 - N.to_nat j)) ltac:(lia)). unfold be_bit_of in H.
    replace ((8 * k + (7 - N.to_nat j)) / 8) with k in H by lia.
    replace (N.of_nat (7 - (8 * k + (7 - N.to_nat j)) mod 8)) with j in H by lia. exact H.
  - rewrite !(testbit_high 8); auto; apply bytes_nth; assumption.
Qed.

Lemma byte_array_ext_le a b :
  bytes a -> bytes b -> length a = length b ->
  (forall i, i < 8 * length a -> bit_of a i = bit_of b i) -> a = b.
Proof.
  intros Ha Hb Hl H. apply (list_ext a b 0%N Hl). intros k Hk. apply N.bits_inj. intros j.
  destruct (N.lt_ge_cases j 8) as [L|L].
  - specialize (H (8 * k + N.to_nat j) ltac:(lia)). unfold bit_of in H.
    replace ((8 * k + N.to_nat j) / 8) with k in H by lia.
    replace (N.of_nat ((8 * k + N.to_nat j) mod 8)) with j in H by lia. exact H.
  - rewrite !(testbit_high 8); auto; apply bytes_nth; assumption.
Qed.

(** ** Bit lists *)
Lemma low_bits_length v n : length (low_bits v n) = n.
Proof. unfold low_bits. rewrite map_length, seq_length. reflexivity. Qed.

Lemma nth_map_seq {A} (f : nat -> A) p n i d : nth i (map f (seq p n)) d = if i <? n then f (p + i) else d.
Proof.
  destruct (Nat.ltb_spec i n) as [L|L].
  - rewrite nth_indep with (d' := f 0) by (rewrite map_length, seq_length; exact L).
    rewrite map_nth, seq_nth by exact L. reflexivity.
  - apply nth_overflow. rewrite map_length, seq_length. exact L.
Qed.

Lemma nth_low_bits v n i : nth i (low_bits v n) false = ((i <? n) && N.testbit v (N.of_nat i))%bool.
Proof. unfold low_bits. rewrite nth_map_seq. destruct (i <? n); reflexivity. Qed.

Lemma low_bits_app v n m : low_bits v n ++ low_bits (N.shiftr v (N.of_nat n)) m = low_bits v (n + m).
Proof.
  apply (list_ext _ _ false); [rewrite app_length, !low_bits_length; reflexivity|].
  intros i Hi. destruct (Nat.lt_ge_cases i n) as [L|L].
  - rewrite app_nth1 by (rewrite low_bits_length; exact L). rewrite !nth_low_bits.
    replace (i <? n) with true by lia. replace (i <? n + m) with true by lia. reflexivity.
  - rewrite app_nth2 by (rewrite low_bits_length; exact L). rewrite low_bits_length, !nth_low_bits.
    rewrite N.shiftr_spec'. replace (i - n <? m) with (i <? n + m) by lia.
    do 2 f_equal. lia.
Qed.

Lemma bits_value_testbit l i : N.testbit (bits_value l) i = nth (N.to_nat i) l false.
Proof.
  revert i. induction l as [|b l IH]; intros i; cbn [bits_value].
  - rewrite N.bits_0. destruct (N.to_nat i); reflexivity.
  - destruct (N.eq_dec i 0) as [->|Hi].
    + change (nth _ _ _) with b. apply N.add_b2n_double_bit0.
    + replace i with (N.succ (N.pred i)) by lia.
      rewrite N.testbit_succ_r_div2, N.div2_div by lia. rewrite N.add_b2n_double_div2, IH.
      replace (N.to_nat (N.succ (N.pred i))) with (S (N.to_nat (N.pred i))) by lia. reflexivity.
Qed.

(** ** Writes: [puts buf buf' p l] says the bits [l] were stored at position [p], nothing else changed *)
Definition puts (buf buf' : list N) (p : nat) (l : list bool) : Prop :=
  length buf' = length buf /\ bytes buf' /\
  forall i, bit_of buf' i = if (p <=? i) && (i <? p + length l) then nth (i - p) l false else bit_of buf i.

Lemma puts_nil buf p : bytes buf -> puts buf buf p [].
Proof.
  intros H. split; [reflexivity|]. split; [exact H|]. intros i. simpl length.
  replace ((p <=? i) && (i <? p + 0)) with false by lia. reflexivity.
Qed.

Lemma puts_app b0 b1 b2 p l1 l2 :
  puts b0 b1 p l1 -> puts b1 b2 (p + length l1) l2 -> puts b0 b2 p (l1 ++ l2).
Proof.
  intros (L1 & B1 & H1) (L2 & B2 & H2). split; [congruence|]. split; [exact B2|].
  intros i. rewrite H2, H1, app_length.
  destruct (Nat.leb_spec p i), (Nat.ltb_spec i (p + length l1)), (Nat.leb_spec (p + length l1) i),
    (Nat.ltb_spec i (p + length l1 + length l2)), (Nat.ltb_spec i (p + (length l1 + length l2)));
    cbn [andb]; try lia; try reflexivity.
  - rewrite app_nth1 by lia. reflexivity.
  - rewrite app_nth2 by lia. f_equal. lia.
Qed.

Lemma all_bits_length buf : length (all_bits buf) = 8 * length buf.
Proof. unfold all_bits. rewrite map_length, seq_length. reflexivity. Qed.

Lemma nth_skipn {A} (l : list A) n i d : nth i (skipn n l) d = nth (n + i) l d.
Proof.
  revert l i; induction n as [|n IH]; intros [|x l] i; cbn [skipn Nat.add]; try reflexivity.
  - destruct i; reflexivity.
  - rewrite IH. reflexivity.
Qed.

Lemma nth_firstn {A} (l : list A) n i d : i < n -> nth i (firstn n l) d = nth i l d.
Proof.
  revert l i; induction n as [|n IH]; intros [|x l] i H; try lia; try (destruct i; reflexivity).
  destruct i; cbn; [reflexivity|]. apply IH. lia.
Qed.

Lemma puts_all_bits buf buf' p l :
  puts buf buf' p l -> p + length l <= 8 * length buf ->
  all_bits buf' = firstn p (all_bits buf) ++ l ++ skipn (p + length l) (all_bits buf).
Proof.
  intros (L & B & H) Hp. apply (list_ext _ _ false).
  - rewrite !app_length, firstn_length, skipn_length, !all_bits_length. lia.
  - intros i Hi. rewrite all_bits_length in Hi. unfold all_bits at 1. rewrite nth_map_seq.
    replace (i <? 8 * length buf') with true by lia. cbn [Nat.add]. rewrite H.
    destruct (Nat.leb_spec p i); destruct (Nat.ltb_spec i (p + length l)); cbn [andb]; try lia.
    + rewrite app_nth2 by (rewrite firstn_length, all_bits_length; lia).
      rewrite firstn_length, all_bits_length. replace (i - min p (8 * length buf)) with (i - p) by lia.
      rewrite app_nth1 by lia. reflexivity.
    + rewrite app_nth2 by (rewrite firstn_length, all_bits_length; lia).
      rewrite firstn_length, all_bits_length. replace (i - min p (8 * length buf)) with (i - p) by lia.
      rewrite app_nth2 by lia. rewrite nth_skipn. unfold all_bits. rewrite nth_map_seq.
      replace (p + length l + (i - p - length l)) with i by lia.
      replace (i <? 8 * length buf) with true by lia. reflexivity.
    + rewrite app_nth1 by (rewrite firstn_length, all_bits_length; lia).
      rewrite nth_firstn by lia. unfold all_bits. rewrite nth_map_seq.
      replace (i <? 8 * length buf) with true by lia. reflexivity.
Qed.

Lemma all_bits_slice buf p n :
  p + n <= 8 * length buf -> firstn n (skipn p (all_bits buf)) = map (bit_of buf) (seq p n).
Proof.
  intros H. apply (list_ext _ _ false).
  - rewrite firstn_length, skipn_length, all_bits_length, map_length, seq_length. lia.
  - intros i Hi. rewrite firstn_length in Hi.
    rewrite nth_firstn by lia. rewrite nth_skipn. unfold all_bits. rewrite !nth_map_seq.
    replace (p + i <? 8 * length buf) with true by lia. replace (i <? n) with true by lia.
    reflexivity.
Qed.

(** ** bitstream.hh *)
Lemma bs_split_ok p : bs_split (Z.of_nat p) = Ok (N.of_nat (p mod 8), p / 8).
Proof.
  unfold bs_split. replace (0 <=? Z.of_nat p)%Z with true by lia. cbn [require bind].
  rewrite Z.rem_mod_nonneg, Z.quot_div_nonneg by lia. do 2 f_equal; lia.
Qed.

Lemma putbit_ok buf p b :
  bytes buf -> p < 8 * length buf ->
  exists buf', bs_putbit {| bs_buf := buf; bs_pos := Z.of_nat p |} b
               = Ok {| bs_buf := buf'; bs_pos := Z.of_nat p + 1 |} /\ puts buf buf' p [b].
Proof.
  intros Hb Hp. unfold bs_putbit. cbn [bs_pos bs_buf]. rewrite bs_split_ok. cbn [bind].
  rewrite (rd_nth buf _ 0%N) by lia. cbn [bind]. rewrite wr_Ok by lia. cbn [bind].
  eexists; split; [reflexivity|]. split; [apply length_upd|].
  split; [apply bytes_upd; [exact Hb|apply wrap8_byte]|].
  intros i. rewrite bit_of_upd by lia. tbits. cbn [length].
  destruct (Nat.eq_dec i p) as [->|Hne].
  - rewrite Nat.eqb_refl. replace ((p <=? p) && (p <? p + 1)) with true by lia.
    rewrite Nat.sub_diag, N.leb_refl, N.sub_diag, N.eqb_refl. cbn [nth].
    replace (N.of_nat (p mod 8) <? 8)%N with true by lia. destruct b; rewrite ?andb_false_r; reflexivity.
  - replace ((p <=? i) && (i <? p + 1)) with false by lia.
    destruct (Nat.eqb_spec (p / 8) (i / 8)) as [He|He]; [|reflexivity].
    unfold bit_of. rewrite He.
    replace (N.of_nat (i mod 8) - N.of_nat (p mod 8) =? 0)%N
      with (N.of_nat (i mod 8) <=? N.of_nat (p mod 8))%N by lia.
    replace (N.of_nat (i mod 8) <? 8)%N with true by lia.
    destruct (N.leb_spec (N.of_nat (i mod 8)) (N.of_nat (p mod 8)));
    destruct (N.leb_spec (N.of_nat (p mod 8)) (N.of_nat (i mod 8))); try lia;
    cbn [andb orb negb]; rewrite ?andb_true_r, ?andb_false_r, ?orb_false_r; reflexivity.
Qed.

Lemma getbit_ok buf p :
  p < 8 * length buf ->
  bs_getbit {| bs_buf := buf; bs_pos := Z.of_nat p |}
  = Ok ({| bs_buf := buf; bs_pos := Z.of_nat p + 1 |}, bit_of buf p).
Proof.
  intros Hp. unfold bs_getbit. cbn [bs_pos bs_buf]. rewrite bs_split_ok. cbn [bind].
  rewrite (rd_nth buf _ 0%N) by lia. cbn [bind]. rewrite odd_shiftr. reflexivity.
Qed.

Lemma store_ok buf byte bit b :
  bytes buf -> (b < 256)%N -> bit < 8 -> 8 * byte + bit + 8 <= 8 * length buf ->
  exists buf', (if (N.of_nat bit =? 0)%N then wr buf byte b
                else bs_store_unaligned buf byte (N.of_nat bit) b) = Ok buf'
            /\ puts buf buf' (8 * byte + bit) (low_bits b 8).
Proof.
  intros Hb Hv Hbit Hp. destruct (N.eqb_spec (N.of_nat bit) 0) as [H0|H0].
  - assert (bit = 0) by lia. subst bit. rewrite wr_Ok by lia.
    eexists; split; [reflexivity|]. split; [apply length_upd|].
    split; [apply bytes_upd; assumption|]. intros i.
    rewrite bit_of_upd by lia. rewrite low_bits_length, nth_low_bits.
    destruct (Nat.eqb_spec byte (i / 8)) as [He|He].
    + replace ((8 * byte + 0 <=? i) && (i <? 8 * byte + 0 + 8)) with true by lia.
      replace (i - (8 * byte + 0) <? 8) with true by lia. cbn [andb]. f_equal. lia.
    + replace ((8 * byte + 0 <=? i) && (i <? 8 * byte + 0 + 8)) with false by lia. reflexivity.
  - unfold bs_store_unaligned. rewrite (rd_nth buf _ 0%N) by lia. cbn [bind].
    rewrite wr_Ok by lia. cbn [bind]. rewrite (rd_nth _ _ 0%N) by (rewrite length_upd; lia).
    cbn [bind]. rewrite wr_Ok by (rewrite length_upd; lia). rewrite nth_upd_neq by lia.
    eexists; split; [reflexivity|]. split; [rewrite !length_upd; reflexivity|].
    split; [repeat apply bytes_upd; try apply wrap8_byte; exact Hb|]. intros i.
    rewrite bit_of_upd by (rewrite length_upd; lia). rewrite bit_of_upd by lia. tbits.
    rewrite low_bits_length, nth_low_bits.
    destruct (Nat.eqb_spec (S byte) (i / 8)) as [He|He].
    + replace (N.of_nat (i mod 8) <? 8)%N with true by lia.
      destruct (N.ltb_spec (N.of_nat (i mod 8)) (N.of_nat bit)).
      * replace ((8 * byte + bit <=? i) && (i <? 8 * byte + bit + 8)) with true by lia.
        replace (i - (8 * byte + bit) <? 8) with true by lia.
        rewrite ?andb_false_r. cbn [andb orb negb]. rewrite ?andb_true_r, ?andb_false_r.
        cbn [andb orb negb]. f_equal. lia.
      * replace ((8 * byte + bit <=? i) && (i <? 8 * byte + bit + 8)) with false by lia.
        rewrite (testbit_high 8 b) by (change (2^8)%N with 256%N; lia).
        unfold bit_of. rewrite <- He. rewrite ?andb_false_r, ?andb_true_r, ?orb_false_r.
        cbn [andb orb negb]. rewrite ?andb_true_r. reflexivity.
    + destruct (Nat.eqb_spec byte (i / 8)) as [He2|He2].
      * replace (N.of_nat (i mod 8) <? 8)%N with true by lia.
        destruct (N.ltb_spec (N.of_nat (i mod 8)) (N.of_nat bit)).
        -- replace ((8 * byte + bit <=? i) && (i <? 8 * byte + bit + 8)) with false by lia.
           replace (N.of_nat bit <=? N.of_nat (i mod 8))%N with false by lia.
           unfold bit_of. rewrite <- He2. cbn [andb orb negb].
           rewrite ?andb_true_r, ?orb_false_r. reflexivity.
        -- replace ((8 * byte + bit <=? i) && (i <? 8 * byte + bit + 8)) with true by lia.
           replace (N.of_nat bit <=? N.of_nat (i mod 8))%N with true by lia.
           replace (i - (8 * byte + bit) <? 8) with true by lia.
           cbn [andb orb negb]. rewrite ?andb_true_r. f_equal. lia.
      * replace ((8 * byte + bit <=? i) && (i <? 8 * byte + bit + 8)) with false by lia. reflexivity.
Qed.

Lemma load_ok buf byte bit :
  bytes buf -> bit < 8 -> 8 * byte + bit + 8 <= 8 * length buf ->
  (if (N.of_nat bit =? 0)%N then rd buf byte
   else bs_load_unaligned buf byte (N.of_nat bit))
  = Ok (bits_value (map (bit_of buf) (seq (8 * byte + bit) 8))).
Proof.
  intros Hb Hbit Hp. destruct (N.eqb_spec (N.of_nat bit) 0) as [H0|H0].
  - assert (bit = 0) by lia. subst bit. rewrite (rd_nth buf _ 0%N) by lia. f_equal.
    apply N.bits_inj. intros j. rewrite bits_value_testbit, nth_map_seq.
    destruct (Nat.ltb_spec (N.to_nat j) 8).
    + unfold bit_of. replace ((8 * byte + 0 + N.to_nat j) / 8) with byte by lia. f_equal. lia.
    + apply (testbit_high 8); [apply bytes_nth; exact Hb|lia].
  - unfold bs_load_unaligned. rewrite (rd_nth buf _ 0%N) by lia. cbn [bind].
    rewrite (rd_nth buf _ 0%N) by lia. cbn [bind]. f_equal.
    apply N.bits_inj. intros j. rewrite bits_value_testbit, nth_map_seq. tbits.
    destruct (Nat.ltb_spec (N.to_nat j) 8).
    + replace (j <? 8)%N with true by lia. rewrite !andb_true_r. unfold bit_of.
      destruct (N.leb_spec (8 - N.of_nat bit) j).
      * replace ((8 * byte + bit + N.to_nat j) / 8) with (S byte) by lia. cbn [andb].
        rewrite (testbit_high 8 (nth byte buf 0%N)); [|apply bytes_nth; exact Hb|lia].
        rewrite orb_false_r. f_equal. lia.
      * replace ((8 * byte + bit + N.to_nat j) / 8) with byte by lia. cbn [andb orb]. f_equal. lia.
    + replace (j <? 8)%N with false by lia. rewrite !andb_false_r. reflexivity.
Qed.

Lemma putbyte_ok buf p b :
  bytes buf -> (b < 256)%N -> p + 8 <= 8 * length buf ->
  exists buf', bs_putbyte {| bs_buf := buf; bs_pos := Z.of_nat p |} b
               = Ok {| bs_buf := buf'; bs_pos := Z.of_nat p + 8 |} /\ puts buf buf' p (low_bits b 8).
Proof.
  intros Hb Hv Hp. unfold bs_putbyte. cbn [bs_pos bs_buf]. rewrite bs_split_ok. cbn [bind].
  destruct (store_ok buf (p / 8) (p mod 8) b Hb Hv) as (buf' & E & P); [lia|lia|].
  replace (8 * (p / 8) + p mod 8) with p in P by lia.
  rewrite E. cbn [bind]. eauto.
Qed.

Lemma getbyte_ok buf p :
  bytes buf -> p + 8 <= 8 * length buf ->
  bs_getbyte {| bs_buf := buf; bs_pos := Z.of_nat p |}
  = Ok ({| bs_buf := buf; bs_pos := Z.of_nat p + 8 |}, bits_value (map (bit_of buf) (seq p 8))).
Proof.
  intros Hb Hp. unfold bs_getbyte. cbn [bs_pos bs_buf]. rewrite bs_split_ok. cbn [bind].
  rewrite load_ok by (try exact Hb; lia). cbn [bind].
  replace (8 * (p / 8) + p mod 8) with p by lia. reflexivity.
Qed.

Lemma flat_low_length l : length (flat_map (fun b => low_bits b 8) l) = 8 * length l.
Proof.
  induction l as [|x l IH]; [reflexivity|]. cbn [flat_map]. rewrite app_length, low_bits_length, IH.
  cbn [length]. lia.
Qed.

Lemma firstn_snoc {A} (l : list A) n d : n < length l -> firstn (S n) l = firstn n l ++ [nth n l d].
Proof.
  revert n; induction l as [|x l IH]; intros [|n] H; cbn in *; try lia; [reflexivity|].
  f_equal. rewrite (IH n) by lia. reflexivity.
Qed.

Lemma writebytes_ok buf p src :
  bytes buf -> bytes src -> p + 8 * length src <= 8 * length buf ->
  exists buf', bs_writebytes {| bs_buf := buf; bs_pos := Z.of_nat p |} src
               = Ok {| bs_buf := buf'; bs_pos := Z.of_nat p + 8 * Z.of_nat (length src) |}
          /\ puts buf buf' p (flat_map (fun b => low_bits b 8) src).
Proof.
  intros Hb Hs Hp. unfold bs_writebytes. cbn [bs_pos bs_buf]. rewrite bs_split_ok. cbn [bind].
  edestruct (for_up_inv
    (fun i b => puts buf b p (flat_map (fun b => low_bits b 8) (firstn i src)))) as (b' & E & I).
  4: { rewrite E. cbn [bind]. eexists; split; [reflexivity|]. rewrite firstn_all in I. exact I. }
  - lia.
  - intros j b Hj (L & B & H). rewrite (rd_nth src _ 0%N) by lia. cbn [bind].
    destruct (store_ok b (p / 8 + j) (p mod 8) (nth j src 0%N) B) as (b2 & E2 & P2);
      [apply (bytes_nth src j Hs)|lia|lia|].
    exists b2. split; [exact E2|].
    rewrite (firstn_snoc src j 0%N) by lia. rewrite flat_map_app. apply (puts_app _ b).
    + repeat split; assumption.
    + cbn [flat_map]. rewrite app_nil_r.
      replace (p + length (flat_map (fun b => low_bits b 8) (firstn j src)))
        with (8 * (p / 8 + j) + p mod 8); [exact P2|].
      rewrite flat_low_length, firstn_length. lia.
  - cbn [firstn flat_map]. apply puts_nil. exact Hb.
Qed.

Lemma nth_bits_bytes n l i :
  i < n -> nth i (bits_bytes n l) 0%N = bits_value (firstn 8 (skipn (8 * i) l)).
Proof.
  revert l i; induction n as [|n IH]; intros l i Hi; [lia|]. cbn [bits_bytes].
  destruct i as [|i]; cbn [nth]; [reflexivity|]. rewrite IH by lia.
  f_equal. f_equal. replace (8 * S i) with (8 + 8 * i) by lia.
  generalize (8 * i). intros k. do 8 (destruct l as [|? l]; [rewrite ?skipn_nil; reflexivity|]).
  reflexivity.
Qed.

Lemma bits_bytes_length n l : length (bits_bytes n l) = n.
Proof. revert l; induction n as [|n IH]; intros l; cbn; auto. Qed.

Lemma readbytes_ok buf p dst :
  bytes buf -> p + 8 * length dst <= 8 * length buf ->
  bs_readbytes {| bs_buf := buf; bs_pos := Z.of_nat p |} dst
  = Ok ({| bs_buf := buf; bs_pos := Z.of_nat p + 8 * Z.of_nat (length dst) |},
        bits_bytes (length dst) (map (bit_of buf) (seq p (8 * length dst)))).
Proof.
  intros Hb Hp. unfold bs_readbytes. cbn [bs_pos bs_buf]. rewrite bs_split_ok. cbn [bind].
  set (R := bits_bytes (length dst) (map (bit_of buf) (seq p (8 * length dst)))).
  edestruct (for_up_inv (fun i d => length d = length dst /\ forall k, k < i -> nth k d 0%N = nth k R 0%N))
    as (d' & E & I).
  4: { rewrite E. cbn [bind]. do 2 f_equal. destruct I as (L & H). apply (list_ext _ _ 0%N).
       - unfold R. rewrite bits_bytes_length. exact L.
       - intros i Hi. apply H. lia. }
  - lia.
  - intros j d Hj (L & H). cbv beta. rewrite load_ok by (try exact Hb; lia). cbn [bind].
    rewrite wr_Ok by lia. eexists; split; [reflexivity|]. split; [rewrite length_upd; exact L|].
    intros k Hk. destruct (Nat.eq_dec k j) as [->|Hne].
    + rewrite nth_upd_eq by lia. unfold R. rewrite nth_bits_bytes by lia. f_equal.
      apply (list_ext _ _ false).
      * rewrite map_length, seq_length, firstn_length, skipn_length, map_length, seq_length. lia.
      * intros i Hi. rewrite map_length, seq_length in Hi.
        rewrite nth_firstn by exact Hi. rewrite nth_skipn, !nth_map_seq.
        replace (i <? 8) with true by lia. replace (8 * j + i <? 8 * length dst) with true by lia.
        f_equal. lia.
    + rewrite nth_upd_neq by lia. apply H. lia.
  - split; [reflexivity|]. intros k Hk. lia.
Qed.

Lemma chunk_put buf p copy (v : N) :
  bytes buf -> p < 8 * length buf -> copy <= 8 - p mod 8 -> 0 < copy ->
  puts buf
    (upd buf (p / 8)
       (N.lor (wrap 8 (N.ldiff (nth (p / 8) buf 0%N)
                  (N.shiftl (wrap 8 (N.shiftl 1 (N.of_nat copy) - 1)) (N.of_nat (p mod 8)))))
              (wrap 8 (N.shiftl (N.land (wrap 8 (N.shiftl 1 (N.of_nat copy) - 1)) v) (N.of_nat (p mod 8))))))
    p (low_bits v copy).
Proof.
  intros Hb Hp Hc H0. split; [apply length_upd|]. split.
  - apply bytes_upd; [exact Hb|]. change 256%N with (2 ^ 8)%N. apply lt_pow2_testbit.
    intros i Hi. tbits. replace (i <? 8)%N with false by lia. rewrite !andb_false_r. reflexivity.
  - intros i. rewrite bit_of_upd by lia. tbits. rewrite low_bits_length, nth_low_bits.
    destruct (Nat.eqb_spec (p / 8) (i / 8)) as [He|He].
    + replace (N.of_nat (i mod 8) <? 8)%N with true by lia. unfold bit_of. rewrite <- He.
      destruct (N.leb_spec (N.of_nat (p mod 8)) (N.of_nat (i mod 8))) as [L|L].
      * replace (N.of_nat (i mod 8) - N.of_nat (p mod 8) <? 8)%N with true by lia.
        destruct (N.ltb_spec (N.of_nat (i mod 8) - N.of_nat (p mod 8)) (N.of_nat copy)) as [L2|L2].
        -- replace ((p <=? i) && (i <? p + copy)) with true by lia.
           replace (i - p <? copy) with true by lia. cbn [andb orb negb].
           rewrite ?andb_true_r, ?andb_false_r. cbn [andb orb]. f_equal. lia.
        -- replace ((p <=? i) && (i <? p + copy)) with false by lia.
           cbn [andb orb negb]. rewrite ?andb_true_r, ?orb_false_r. reflexivity.
      * replace ((p <=? i) && (i <? p + copy)) with false by lia.
        cbn [andb orb negb]. rewrite ?andb_true_r, ?orb_false_r. reflexivity.
    + replace ((p <=? i) && (i <? p + copy)) with false by lia. reflexivity.
Qed.

Lemma writebits_ok w buf p v n :
  bytes buf -> p + n <= 8 * length buf -> n <= N.to_nat w ->
  exists buf', bs_writebits w {| bs_buf := buf; bs_pos := Z.of_nat p |} v (Z.of_nat n)
               = Ok {| bs_buf := buf'; bs_pos := Z.of_nat p + Z.of_nat n |}
          /\ puts buf buf' p (low_bits v n).
Proof.
  intros Hb Hp Hn. unfold bs_writebits. replace (0 <=? Z.of_nat n)%Z with true by lia.
  cbn [require bind].
  edestruct (@while_inv (bitstream * N * N)
    (fun '(s, num, sum) => exists k, sum = N.of_nat k /\ (num + sum = N.of_nat n)%N /\
        bs_pos s = Z.of_nat (p + k) /\ puts buf (bs_buf s) p (low_bits v k))
    (fun '(s, num, sum) => N.to_nat num)) as (s' & E & I & C).
  4: { rewrite E. destruct s' as [[s' num] sum]. cbn [bind]. destruct I as (k & Hk & Hnum & Hpos & P).
       assert (num = 0%N) by (injection C; intros; lia). assert (k = n) by lia. subst k.
       destruct s' as [b' p']. cbn [bs_pos bs_buf] in *. exists b'. split; [|exact P]. subst p'.
       do 2 f_equal. lia. }
  - intros [[s num] sum] (k & Hk & Hnum & Hpos & P).
    destruct s as [b q]. cbn [bs_pos bs_buf] in *. subst q sum.
    eexists; split; [reflexivity|]. intros Hnz.
    rewrite bs_split_ok. cbn [bind].
    replace (N.min (8 - N.of_nat ((p + k) mod 8)) num)
      with (N.of_nat (Nat.min (8 - (p + k) mod 8) (n - k))) by lia.
    replace (N.of_nat k <? promoted w)%N with true by (unfold promoted; lia). cbn [require bind].
    destruct P as (L & B & H).
    rewrite (rd_nth b _ 0%N) by lia. cbn [bind]. rewrite wr_Ok by lia. cbn [bind].
    eexists; split; [reflexivity|]. split.
    + exists (k + Nat.min (8 - (p + k) mod 8) (n - k)).
      split; [lia|]. split; [lia|]. split; [cbn [bs_pos]; lia|]. cbn [bs_buf].
      rewrite <- low_bits_app. apply (puts_app _ b); [repeat split; assumption|].
      rewrite low_bits_length. apply chunk_put; try exact B; lia.
    + lia.
  - exists 0. split; [reflexivity|]. split; [lia|]. split; [cbn [bs_pos]; lia|].
    cbn [bs_buf]. apply puts_nil. exact Hb.
  - cbv beta iota; lia.
Qed.

Lemma readbits_ok w buf p n :
  bytes buf -> p + n <= 8 * length buf -> n <= N.to_nat w ->
  bs_readbits w {| bs_buf := buf; bs_pos := Z.of_nat p |} (Z.of_nat n)
  = Ok ({| bs_buf := buf; bs_pos := Z.of_nat p + Z.of_nat n |},
        bits_value (map (bit_of buf) (seq p n))).
Proof.
  intros Hb Hp Hn. unfold bs_readbits. replace (0 <=? Z.of_nat n)%Z with true by lia.
  cbn [require bind].
  edestruct (@while_inv (bitstream * N * N * N)
    (fun '(s, num, sum, a) => exists k, sum = N.of_nat k /\ (num + sum = N.of_nat n)%N /\
        s = {| bs_buf := buf; bs_pos := Z.of_nat (p + k) |} /\
        a = bits_value (map (bit_of buf) (seq p k)))
    (fun '(s, num, sum, a) => N.to_nat num)) as (s' & E & I & C).
  4: { rewrite E. destruct s' as [[[s' num] sum] a]. cbn [bind].
       destruct I as (k & Hk & Hnum & -> & ->).
       assert (num = 0%N) by (injection C; intros; lia). assert (k = n) by lia. subst k.
       do 3 f_equal. lia. }
  - intros [[[s num] sum] a] (k & Hk & Hnum & -> & ->).
    cbn [bs_pos bs_buf] in *. subst sum.
    eexists; split; [reflexivity|]. intros Hnz.
    rewrite bs_split_ok. cbn [bind].
    set (c := Nat.min (8 - (p + k) mod 8) (n - k)).
    replace (N.min (8 - N.of_nat ((p + k) mod 8)) num) with (N.of_nat c) by lia.
    rewrite (rd_nth buf _ 0%N) by lia. cbn [bind].
    replace (N.of_nat k <? promoted w)%N with true by (unfold promoted; lia). cbn [require bind].
    eexists; split; [reflexivity|]. split; [|lia].
    exists (k + c). split; [lia|]. split; [lia|]. split; [f_equal; lia|].
    apply N.bits_inj. intros j. tbits. rewrite !bits_value_testbit, !nth_map_seq.
    destruct (Nat.ltb_spec (N.to_nat j) k) as [L|L].
    + replace (N.to_nat j <? k + c) with true by lia.
      replace (N.of_nat k <=? j)%N with false by lia. replace (j <? w)%N with true by lia.
      cbn [andb orb]. rewrite orb_false_r, andb_true_r. reflexivity.
    + replace (N.of_nat k <=? j)%N with true by lia.
      destruct (Nat.ltb_spec (N.to_nat j) (k + c)) as [L2|L2].
      * replace (j - N.of_nat k <? N.of_nat c)%N with true by lia.
        replace (j - N.of_nat k <? 8)%N with true by lia.
        replace (j - N.of_nat k <? w)%N with true by lia. replace (j <? w)%N with true by lia.
        cbn [andb orb]. rewrite !andb_true_r. unfold bit_of.
        replace ((p + N.to_nat j) / 8) with ((p + k) / 8) by lia. f_equal. lia.
      * replace (j - N.of_nat k <? N.of_nat c)%N with false by lia.
        cbn [andb orb]. reflexivity.
  - exists 0. split; [reflexivity|]. split; [lia|]. split; [f_equal; lia|]. reflexivity.
  - cbv beta iota; lia.
Qed.

Lemma reset_ok buf p :
  bs_reset {| bs_buf := buf; bs_pos := p |}
  = Ok {| bs_buf := repeat 0%N (length buf); bs_pos := 0 |}.
Proof.
  unfold bs_reset. cbn [bs_buf].
  edestruct (for_up_inv (fun i b => length b = length buf /\ forall k, k < i -> nth k b 0%N = 0%N))
    as (b' & E & I).
  4: { rewrite E. cbn [bind]. do 2 f_equal. destruct I as (L & H). apply (list_ext _ _ 0%N).
       - rewrite repeat_length. exact L.
       - intros i Hi. rewrite nth_repeat. apply H. lia. }
  - lia.
  - intros j b Hj (L & H). rewrite wr_Ok by lia. eexists; split; [reflexivity|].
    split; [rewrite length_upd; exact L|]. intros k Hk.
    rewrite nth_upd. destruct ((j =? k) && (j <? length b)) eqn:Q; [reflexivity|]. apply H. lia.
  - split; [reflexivity|]. intros k Hk. lia.
Qed.

Lemma all_bits_zero n : all_bits (repeat 0%N n) = repeat false (8 * n).
Proof.
  apply (list_ext _ _ false); [rewrite all_bits_length, !repeat_length; reflexivity|].
  intros i Hi. unfold all_bits. rewrite nth_map_seq, nth_repeat.
  destruct (i <? 8 * length (repeat 0%N n)); [|reflexivity].
  unfold bit_of. rewrite nth_repeat. apply N.bits_0.
Qed.

Definition abs (s : bitstream) : astream := {| as_bits := all_bits (bs_buf s); as_pos := bs_pos s |}.

Lemma in_range_inv s n :
  in_range (abs s) n = true ->
  exists p, bs_pos s = Z.of_nat p /\ p + n <= 8 * length (bs_buf s).
Proof.
  unfold in_range, abs. cbn [as_pos as_bits]. rewrite all_bits_length. intros H.
  exists (Z.to_nat (bs_pos s)). lia.
Qed.

Lemma put_bits_inv s l a' :
  put_bits (abs s) l = Some a' ->
  exists p, bs_pos s = Z.of_nat p /\ p + length l <= 8 * length (bs_buf s) /\
    forall buf', puts (bs_buf s) buf' p l ->
      a' = abs {| bs_buf := buf'; bs_pos := bs_pos s + Z.of_nat (length l) |}.
Proof.
  unfold put_bits. destruct (in_range (abs s) (length l)) eqn:R; [|discriminate].
  apply in_range_inv in R. destruct R as (p & Hp & Hl). intros H. injection H as <-.
  exists p. split; [exact Hp|]. split; [exact Hl|]. intros buf' P.
  unfold abs. cbn [as_bits as_pos bs_buf bs_pos]. f_equal.
  rewrite (puts_all_bits _ _ _ _ P Hl). rewrite Hp, Nat2Z.id. reflexivity.
Qed.

Lemma get_bits_inv s n a' l :
  get_bits (abs s) n = Some (a', l) ->
  exists p, bs_pos s = Z.of_nat p /\ p + n <= 8 * length (bs_buf s) /\
    a' = abs {| bs_buf := bs_buf s; bs_pos := bs_pos s + Z.of_nat n |} /\
    l = map (bit_of (bs_buf s)) (seq p n).
Proof.
  unfold get_bits. destruct (in_range (abs s) n) eqn:R; [|discriminate].
  apply in_range_inv in R. destruct R as (p & Hp & Hl). intros H. injection H as <- <-.
  exists p. split; [exact Hp|]. split; [exact Hl|]. split; [reflexivity|].
  unfold abs. cbn [as_bits as_pos]. rewrite Hp, Nat2Z.id. apply all_bits_slice. exact Hl.
Qed.

Lemma bs_step_refines s o a' out :
  bytes (bs_buf s) -> spec_step (abs s) o = Some (a', out) ->
  exists s', bs_step s o = Ok (s', out) /\ abs s' = a' /\ bytes (bs_buf s') /\
             length (bs_buf s') = length (bs_buf s).
Proof.
  intros Hb. destruct s as [buf pos]. cbn [bs_buf] in Hb.
  destruct o; cbn [spec_step bs_step]; intros H.
  - injection H as <- <-. eexists; split; [reflexivity|]. auto.
  - injection H as <- <-. eexists; split; [reflexivity|]. auto.
  - injection H as <- <-. rewrite reset_ok. cbn [bind]. eexists; split; [reflexivity|].
    split; [|split].
    + unfold abs. cbn [bs_buf bs_pos as_bits]. rewrite all_bits_zero, all_bits_length. reflexivity.
    + cbn [bs_buf]. apply Forall_forall. intros x Hx. apply repeat_spec in Hx. subst x. reflexivity.
    + cbn [bs_buf]. apply repeat_length.
  - destruct (put_bits _ _) eqn:P in H; [|discriminate]. injection H as <- <-.
    apply put_bits_inv in P. destruct P as (p & Hp & Hl & P). cbn [bs_buf bs_pos length] in *. subst pos.
    destruct (putbit_ok buf p b Hb) as (buf' & E & Q); [lia|]. rewrite E. cbn [bind].
    eexists; split; [reflexivity|]. split; [symmetry; apply P; exact Q|]. cbn [bs_buf]. destruct Q as (? & ? & ?). auto.
  - destruct (get_bits _ _) as [[a l]|] eqn:P in H; [|discriminate]. injection H as <- <-.
    apply get_bits_inv in P. destruct P as (p & Hp & Hl & -> & ->). cbn [bs_buf bs_pos] in *. subst pos.
    rewrite getbit_ok by lia. cbn [bind]. eexists; split; [reflexivity|]. auto.
  - destruct (N.ltb_spec b 256) as [Lb|]; [|discriminate].
    destruct (put_bits _ _) eqn:P in H; [|discriminate]. injection H as <- <-.
    apply put_bits_inv in P. destruct P as (p & Hp & Hl & P). rewrite low_bits_length in *.
    cbn [bs_buf bs_pos] in *. subst pos.
    destruct (putbyte_ok buf p b Hb Lb) as (buf' & E & Q); [lia|]. rewrite E. cbn [bind].
    eexists; split; [reflexivity|]. split; [symmetry; apply P; exact Q|]. cbn [bs_buf]. destruct Q as (? & ? & ?). auto.
  - destruct (get_bits _ _) as [[a l]|] eqn:P in H; [|discriminate]. injection H as <- <-.
    apply get_bits_inv in P. destruct P as (p & Hp & Hl & -> & ->). cbn [bs_buf bs_pos] in *. subst pos.
    rewrite getbyte_ok by (try exact Hb; lia). cbn [bind]. eexists; split; [reflexivity|]. auto.
  - destruct (forallb _ _) eqn:F in H; [|discriminate].
    assert (Hs : bytes l).
    { apply Forall_forall. intros x Hx. rewrite forallb_forall in F. apply F in Hx. lia. }
    destruct (put_bits _ _) eqn:P in H; [|discriminate]. injection H as <- <-.
    apply put_bits_inv in P. destruct P as (p & Hp & Hl & P). rewrite flat_low_length in *.
    cbn [bs_buf bs_pos] in *. subst pos.
    destruct (writebytes_ok buf p l Hb Hs) as (buf' & E & Q); [lia|]. rewrite E. cbn [bind].
    eexists; split; [reflexivity|]. split.
    + symmetry. rewrite (P _ Q). unfold abs. cbn [bs_buf bs_pos]. f_equal. lia.
    + cbn [bs_buf]. destruct Q as (? & ? & ?). auto.
  - destruct (get_bits _ _) as [[a l]|] eqn:P in H; [|discriminate]. injection H as <- <-.
    apply get_bits_inv in P. destruct P as (p & Hp & Hl & -> & ->). cbn [bs_buf bs_pos] in *. subst pos.
    rewrite readbytes_ok by (try exact Hb; lia). cbn [bind]. eexists; split; [reflexivity|].
    split; [|auto]. unfold abs. cbn [bs_buf bs_pos]. f_equal. lia.
  - destruct ((0 <=? num) && (num <=? Z.of_N w))%Z eqn:R; [|discriminate].
    destruct (put_bits _ _) eqn:P in H; [|discriminate]. injection H as <- <-.
    apply put_bits_inv in P. destruct P as (p & Hp & Hl & P). rewrite low_bits_length in *.
    cbn [bs_buf bs_pos] in *. subst pos.
    destruct (writebits_ok w buf p v (Z.to_nat num) Hb) as (buf' & E & Q); [lia|lia|].
    rewrite Z2Nat.id in E, P by lia. rewrite E. cbn [bind].
    eexists; split; [reflexivity|]. split; [symmetry; apply P; exact Q|]. cbn [bs_buf]. destruct Q as (? & ? & ?). auto.
  - destruct ((0 <=? num) && (num <=? Z.of_N w))%Z eqn:R; [|discriminate].
    destruct (get_bits _ _) as [[a l]|] eqn:P in H; [|discriminate]. injection H as <- <-.
    apply get_bits_inv in P. destruct P as (p & Hp & Hl & -> & ->). cbn [bs_buf bs_pos] in *. subst pos.
    pose proof (readbits_ok w buf p (Z.to_nat num) Hb ltac:(lia) ltac:(lia)) as E.
    rewrite Z2Nat.id in * by lia. rewrite E. cbn [bind]. eexists; split; [reflexivity|]. auto.
Qed.

Lemma bs_run_refines ops : forall s a' outs,
  bytes (bs_buf s) -> spec_run (abs s) ops = Some (a', outs) ->
  exists s', bs_run s ops = Ok (s', outs) /\ abs s' = a' /\ bytes (bs_buf s') /\
             length (bs_buf s') = length (bs_buf s).
Proof.
  induction ops as [|o ops IH]; intros s a' outs Hb H; cbn [spec_run bs_run] in *.
  - injection H as <- <-. eauto.
  - destruct (spec_step (abs s) o) as [[a1 out]|] eqn:E; [|discriminate].
    destruct (spec_run a1 ops) as [[a2 outs2]|] eqn:E2; [|discriminate]. injection H as <- <-.
    destruct (bs_step_refines s o a1 out Hb E) as (s1 & Es & Ha & Hb1 & Hl1). subst a1.
    destruct (IH s1 a2 outs2 Hb1 E2) as (s2 & Er & Ha2 & Hb2 & Hl2).
    rewrite Es. cbn [bind]. rewrite Er. cbn [bind]. exists s2. repeat split; auto. congruence.
Qed.

(** ** Packaged statements used by Prop_bits.v *)
Lemma nth_error_nth_eq {A} (a b : list A) k d :
  length a = length b -> nth k a d = nth k b d -> nth_error a k = nth_error b k.
Proof.
  intros L H. destruct (Nat.lt_ge_cases k (length a)).
  - rewrite !nth_error_nth' with (d := d) by lia. congruence.
  - rewrite !(proj2 (nth_error_None _ _)) by lia. reflexivity.
Qed.

Lemma set_be_full buf pos val :
  bytes buf -> pos < 8 * length buf ->
  exists buf', set_be_bit buf (Z.of_nat pos) val = Ok buf' /\ length buf' = length buf /\ bytes buf' /\
    get_be_bit buf' (Z.of_nat pos) = Ok val /\
    (forall q, q < 8 * length buf -> q <> pos ->
       get_be_bit buf' (Z.of_nat q) = get_be_bit buf (Z.of_nat q)) /\
    (forall k, k <> pos / 8 -> nth_error buf' k = nth_error buf k).
Proof.
  intros Hb Hp. destruct (set_be_bit_ok buf pos Hb Hp val) as (b & E & L & B & H & K).
  exists b. split; [exact E|]. split; [exact L|]. split; [exact B|]. split; [|split].
  - rewrite get_be_bit_ok by lia. rewrite H, Nat.eqb_refl. reflexivity.
  - intros q Hq Hn. rewrite !get_be_bit_ok by lia. rewrite H.
    apply Nat.eqb_neq in Hn. rewrite Hn. reflexivity.
  - intros k Hk. apply (nth_error_nth_eq _ _ _ 0%N); auto.
Qed.

Lemma set_le_full buf pos val :
  bytes buf -> pos < 8 * length buf ->
  exists buf', set_le_bit buf (Z.of_nat pos) val = Ok buf' /\ length buf' = length buf /\ bytes buf' /\
    get_le_bit buf' (Z.of_nat pos) = Ok val /\
    (forall q, q < 8 * length buf -> q <> pos ->
       get_le_bit buf' (Z.of_nat q) = get_le_bit buf (Z.of_nat q)) /\
    (forall k, k <> pos / 8 -> nth_error buf' k = nth_error buf k).
Proof.
  intros Hb Hp. destruct (set_le_bit_ok buf pos Hb Hp val) as (b & E & L & B & H & K).
  exists b. split; [exact E|]. split; [exact L|]. split; [exact B|]. split; [|split].
  - rewrite get_le_bit_ok by lia. rewrite H, Nat.eqb_refl. reflexivity.
  - intros q Hq Hn. rewrite !get_le_bit_ok by lia. rewrite H.
    apply Nat.eqb_neq in Hn. rewrite Hn. reflexivity.
  - intros k Hk. apply (nth_error_nth_eq _ _ _ 0%N); auto.
Qed.

Lemma xor_be_full buf pos val :
  bytes buf -> pos < 8 * length buf ->
  exists buf' old, xor_be_bit buf (Z.of_nat pos) val = Ok buf' /\ length buf' = length buf /\
    get_be_bit buf (Z.of_nat pos) = Ok old /\
    get_be_bit buf' (Z.of_nat pos) = Ok (xorb old val) /\
    (forall q, q < 8 * length buf -> q <> pos ->
       get_be_bit buf' (Z.of_nat q) = get_be_bit buf (Z.of_nat q)) /\
    (forall k, k <> pos / 8 -> nth_error buf' k = nth_error buf k) /\
    xor_be_bit buf' (Z.of_nat pos) val = Ok buf.
Proof.
  intros Hb Hp. destruct (xor_be_bit_ok buf pos Hb Hp val) as (b & E & L & B & H & K).
  exists b, (be_bit_of buf pos). split; [exact E|]. split; [exact L|].
  split; [apply get_be_bit_ok; lia|]. split; [|split; [|split]].
  - rewrite get_be_bit_ok by lia. rewrite H, Nat.eqb_refl. reflexivity.
  - intros q Hq Hn. rewrite !get_be_bit_ok by lia. rewrite H.
    apply Nat.eqb_neq in Hn. rewrite Hn. reflexivity.
  - intros k Hk. apply (nth_error_nth_eq _ _ _ 0%N); auto.
  - destruct (xor_be_bit_ok b pos B ltac:(lia) val) as (b2 & E2 & L2 & B2 & H2 & K2).
    rewrite E2. f_equal. apply byte_array_ext; auto; [congruence|].
    intros i Hi. rewrite H2, H. destruct (i =? pos); [|reflexivity].
    rewrite xorb_assoc, xorb_nilpotent, xorb_false_r. reflexivity.
Qed.

Lemma xor_le_full buf pos val :
  bytes buf -> pos < 8 * length buf ->
  exists buf' old, xor_le_bit buf (Z.of_nat pos) val = Ok buf' /\ length buf' = length buf /\
    get_le_bit buf (Z.of_nat pos) = Ok old /\
    get_le_bit buf' (Z.of_nat pos) = Ok (xorb old val) /\
    (forall q, q < 8 * length buf -> q <> pos ->
       get_le_bit buf' (Z.of_nat q) = get_le_bit buf (Z.of_nat q)) /\
    (forall k, k <> pos / 8 -> nth_error buf' k = nth_error buf k) /\
    xor_le_bit buf' (Z.of_nat pos) val = Ok buf.
Proof.
  intros Hb Hp. destruct (xor_le_bit_ok buf pos Hb Hp val) as (b & E & L & B & H & K).
  exists b, (bit_of buf pos). split; [exact E|]. split; [exact L|].
  split; [apply get_le_bit_ok; lia|]. split; [|split; [|split]].
  - rewrite get_le_bit_ok by lia. rewrite H, Nat.eqb_refl. reflexivity.
  - intros q Hq Hn. rewrite !get_le_bit_ok by lia. rewrite H.
    apply Nat.eqb_neq in Hn. rewrite Hn. reflexivity.
  - intros k Hk. apply (nth_error_nth_eq _ _ _ 0%N); auto.
  - destruct (xor_le_bit_ok b pos B ltac:(lia) val) as (b2 & E2 & L2 & B2 & H2 & K2).
    rewrite E2. f_equal. apply byte_array_ext_le; auto; [congruence|].
    intros i Hi. rewrite H2, H. destruct (i =? pos); [|reflexivity].
    rewrite xorb_assoc, xorb_nilpotent, xorb_false_r. reflexivity.
Qed.

Lemma mirror_full buf k j val :
  k < length buf -> j < 8 ->
  get_le_bit buf (Z.of_nat (8 * k + j)) = get_be_bit buf (Z.of_nat (8 * k + (7 - j))) /\
  set_le_bit buf (Z.of_nat (8 * k + j)) val = set_be_bit buf (Z.of_nat (8 * k + (7 - j))) val /\
  xor_le_bit buf (Z.of_nat (8 * k + j)) val = xor_be_bit buf (Z.of_nat (8 * k + (7 - j))) val.
Proof.
  intros Hk Hj.
  assert (Hq1 : Z.quot (Z.of_nat (8 * k + j)) 8 = Z.of_nat k) by (rewrite Z.quot_div_nonneg by lia; lia).
  assert (Hq2 : Z.quot (Z.of_nat (8 * k + (7 - j))) 8 = Z.of_nat k) by (rewrite Z.quot_div_nonneg by lia; lia).
  assert (Hr1 : Z.rem (Z.of_nat (8 * k + j)) 8 = Z.of_nat j) by (rewrite Z.rem_mod_nonneg by lia; lia).
  assert (Hr2 : Z.rem (Z.of_nat (8 * k + (7 - j))) 8 = Z.of_nat (7 - j)) by (rewrite Z.rem_mod_nonneg by lia; lia).
  unfold get_le_bit, get_be_bit, set_le_bit, set_be_bit, xor_le_bit, xor_be_bit.
  rewrite Hq1, Hq2, Hr1, Hr2. replace (0 <=? Z.of_nat j)%Z with true by lia. cbn [require bind].
  replace (7 - Z.of_nat (7 - j))%Z with (Z.of_nat j) by lia. auto.
Qed.

Lemma out_of_range buf pos val :
  8 * length buf <= pos ->
  get_be_bit buf (Z.of_nat pos) = Undef /\ get_le_bit buf (Z.of_nat pos) = Undef /\
  set_be_bit buf (Z.of_nat pos) val = Undef /\ set_le_bit buf (Z.of_nat pos) val = Undef /\
  xor_be_bit buf (Z.of_nat pos) val = Undef /\ xor_le_bit buf (Z.of_nat pos) val = Undef.
Proof.
  intros H.
  assert (Hq : Z.quot (Z.of_nat pos) 8 = Z.of_nat (pos / 8)) by (rewrite Z.quot_div_nonneg by lia; lia).
  assert (Hr : rdZ buf (Z.of_nat (pos / 8)) = Undef).
  { unfold rdZ. replace (Z.of_nat (pos / 8) <? 0)%Z with false by lia. unfold rd.
    rewrite (proj2 (nth_error_None _ _)) by lia. reflexivity. }
  unfold get_be_bit, get_le_bit, set_be_bit, set_le_bit, xor_be_bit, xor_le_bit.
  rewrite Hq, Hr. destruct (0 <=? Z.rem (Z.of_nat pos) 8)%Z; cbn [require bind]; auto 10.
Qed.

Lemma puts_slice buf buf' p l :
  puts buf buf' p l -> map (bit_of buf') (seq p (length l)) = l.
Proof.
  intros (L & B & H). apply (list_ext _ _ false); [rewrite map_length, seq_length; reflexivity|].
  intros i Hi. rewrite map_length, seq_length in Hi. rewrite nth_map_seq, H.
  replace (i <? length l) with true by lia.
  replace ((p <=? p + i) && (p + i <? p + length l)) with true by lia. f_equal. lia.
Qed.

Lemma bits_value_low_bits v n : bits_value (low_bits v n) = (v mod 2 ^ N.of_nat n)%N.
Proof.
  apply N.bits_inj. intros j. rewrite bits_value_testbit, nth_low_bits, N2Nat.id.
  destruct (N.ltb_spec j (N.of_nat n)).
  - rewrite N.mod_pow2_bits_low by assumption. replace (N.to_nat j <? n) with true by lia. reflexivity.
  - rewrite N.mod_pow2_bits_high by assumption. replace (N.to_nat j <? n) with false by lia. reflexivity.
Qed.

Lemma bits_bytes_flat l : bytes l -> bits_bytes (length l) (flat_map (fun b => low_bits b 8) l) = l.
Proof.
  induction l as [|x l IH]; intros H; [reflexivity|]. inversion H as [|? ? Hx Hl]; subst.
  cbn [length flat_map bits_bytes]. f_equal.
  - rewrite firstn_app, low_bits_length, Nat.sub_diag, firstn_O, app_nil_r.
    rewrite firstn_all2 by (rewrite low_bits_length; lia).
    rewrite bits_value_low_bits. apply N.mod_small. exact Hx.
  - rewrite skipn_app, low_bits_length, Nat.sub_diag, skipn_O.
    rewrite skipn_all2 by (rewrite low_bits_length; lia). cbn [app]. apply IH. exact Hl.
Qed.

Lemma write_back_bits w buf p v n :
  bytes buf -> p + n <= 8 * length buf -> n <= N.to_nat w ->
  exists s', bs_run {| bs_buf := buf; bs_pos := Z.of_nat p |}
               [OpWritebits w v (Z.of_nat n); OpTell; OpSeek (Z.of_nat p); OpReadbits w (Z.of_nat n); OpTell]
    = Ok (s', [OutUnit; OutInt (Z.of_nat (p + n)); OutUnit; OutVal (v mod 2 ^ N.of_nat n)%N;
               OutInt (Z.of_nat (p + n))]).
Proof.
  intros Hb Hp Hw. destruct (writebits_ok w buf p v n Hb Hp Hw) as (b & E & P).
  cbn [bs_run bs_step]. rewrite E. unfold bs_seek, bs_tell; cbn [bind bs_pos bs_buf].
  pose proof P as (L & B & _). rewrite readbits_ok by (try exact B; lia). cbn [bind bs_pos].
  eexists. do 2 f_equal.
  pose proof (puts_slice _ _ _ _ P) as S. rewrite low_bits_length in S.
  rewrite S, bits_value_low_bits, Nat2Z.inj_add. reflexivity.
Qed.

Lemma write_back_bytes buf p src dst :
  bytes buf -> bytes src -> p + 8 * length src <= 8 * length buf -> length dst = length src ->
  exists s', bs_run {| bs_buf := buf; bs_pos := Z.of_nat p |}
               [OpWritebytes src; OpTell; OpSeek (Z.of_nat p); OpReadbytes dst; OpTell]
    = Ok (s', [OutUnit; OutInt (Z.of_nat (p + 8 * length src)); OutUnit; OutBytes src;
               OutInt (Z.of_nat (p + 8 * length src))]).
Proof.
  intros Hb Hs Hp Hd. destruct (writebytes_ok buf p src Hb Hs Hp) as (b & E & P).
  cbn [bs_run bs_step]. rewrite E. unfold bs_seek, bs_tell; cbn [bind bs_pos bs_buf].
  pose proof P as (L & B & _). rewrite readbytes_ok by (try exact B; lia). cbn [bind bs_pos].
  eexists. do 2 f_equal.
  pose proof (puts_slice _ _ _ _ P) as S. rewrite flat_low_length in S.
  rewrite Hd, S, bits_bytes_flat by exact Hs. repeat f_equal; lia.
Qed.

Lemma write_back_byte buf p b :
  bytes buf -> (b < 256)%N -> p + 8 <= 8 * length buf ->
  exists s', bs_run {| bs_buf := buf; bs_pos := Z.of_nat p |}
               [OpPutbyte b; OpTell; OpSeek (Z.of_nat p); OpGetbyte; OpTell]
    = Ok (s', [OutUnit; OutInt (Z.of_nat (p + 8)); OutUnit; OutByte b; OutInt (Z.of_nat (p + 8))]).
Proof.
  intros Hb Hs Hp. destruct (putbyte_ok buf p b Hb Hs Hp) as (b' & E & P).
  cbn [bs_run bs_step]. rewrite E. unfold bs_seek, bs_tell; cbn [bind bs_pos bs_buf].
  pose proof P as (L & B & _). rewrite getbyte_ok by (try exact B; lia). cbn [bind bs_pos].
  eexists. do 2 f_equal.
  pose proof (puts_slice _ _ _ _ P) as S. rewrite low_bits_length in S.
  rewrite S, bits_value_low_bits, N.mod_small by exact Hs. repeat f_equal; lia.
Qed.

Lemma history_full ops buf pos a' outs :
  bytes buf ->
  spec_run {| as_bits := all_bits buf; as_pos := pos |} ops = Some (a', outs) ->
  exists buf' pos', bs_run {| bs_buf := buf; bs_pos := pos |} ops = Ok ({| bs_buf := buf'; bs_pos := pos' |}, outs)
    /\ all_bits buf' = as_bits a' /\ pos' = as_pos a' /\ length buf' = length buf /\ bytes buf'.
Proof.
  intros Hb H. destruct (bs_run_refines ops {| bs_buf := buf; bs_pos := pos |} a' outs Hb H)
    as ([b p] & E & A & B & L). exists b, p. subst a'. auto.
Qed.

Lemma step_full o buf pos a' out :
  bytes buf ->
  spec_step {| as_bits := all_bits buf; as_pos := pos |} o = Some (a', out) ->
  exists buf' pos', bs_step {| bs_buf := buf; bs_pos := pos |} o = Ok ({| bs_buf := buf'; bs_pos := pos' |}, out)
    /\ all_bits buf' = as_bits a' /\ pos' = as_pos a' /\ length buf' = length buf /\ bytes buf'.
Proof.
  intros Hb H. destruct (bs_step_refines {| bs_buf := buf; bs_pos := pos |} o a' out Hb H)
    as ([b p] & E & A & B & L). exists b, p. subst a'. auto.
Qed.
