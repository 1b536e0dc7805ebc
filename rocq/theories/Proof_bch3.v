(** Proofs about Model_bch: the reference constructor and the two encoders. *)
From Coq Require Import ZifyBool ZifyNat ZifyN.
From Verif Require Import Cpp Lib_list Proof_bits Model_bits Spec_bits Model_gf Model_rs Model_bch Spec_gf Spec_bch Lib_gf2lin Lib_gf2poly Lib_gf Proof_gf Proof_gffield Proof_rs1 Proof_wht Proof_bch2.
Local Open Scope N_scope.

(** ** words as polynomials *)
Lemma word_poly_snoc w b : word_poly (w ++ [b]) = 2 * word_poly w + b.
Proof. unfold word_poly. rewrite fold_left_app. reflexivity. Qed.
Lemma word_poly_app u v : is_word v -> word_poly (u ++ v) = N.lxor (N.shiftl (word_poly u) (N.of_nat (length v))) (word_poly v).
Proof.
  induction v as [|b v IH] using rev_ind; intros HW; [rewrite app_nil_r; change (word_poly []) with 0; rewrite N.lxor_0_r, N.shiftl_0_r; reflexivity|].
  apply Forall_app in HW. destruct HW as (HW & HB). inversion HB as [|? ? Hb _]; subst. rewrite app_assoc, !word_poly_snoc, IH by exact HW.
  rewrite app_length, Nat.add_1_r, Nat2N.inj_succ, N.shiftl_succ_r.
  assert (D : forall x, 2 * x + b = N.lxor (2 * x) b). { intros x. destruct Hb as [-> | ->]; [rewrite N.add_0_r, N.lxor_0_r; reflexivity|destruct x; reflexivity]. }
  rewrite !D. rewrite <- N.lxor_assoc. f_equal.
  apply N.bits_inj. intros [|k]; [rewrite N.lxor_spec, !N.testbit_even_0; reflexivity|].
  rewrite N.lxor_spec. replace (N.pos k) with (N.succ (N.pred (N.pos k))) by lia. rewrite !N.testbit_even_succ by lia. rewrite N.lxor_spec. reflexivity.
Qed.
Lemma word_poly_bound w : is_word w -> word_poly w < 2 ^ N.of_nat (length w).
Proof.
  induction w as [|b w IH] using rev_ind; intros HW; [cbn; lia|]. apply Forall_app in HW. destruct HW as (HW & HB). inversion HB as [|? ? Hb _]; subst.
  rewrite word_poly_snoc, app_length, Nat.add_1_r, Nat2N.inj_succ, N.pow_succ_r'. specialize (IH HW). lia.
Qed.
(** a word from its coefficients *)
Lemma word_poly_bits n P : P < 2 ^ N.of_nat n -> word_poly (map (fun i => N.b2n (N.testbit P (N.of_nat (n - 1 - i)))) (seq 0 n)) = P.
Proof.
  revert P. induction n as [|n IH]; intros P HP; [cbn in HP |- *; lia|]. rewrite seq_S, map_app. cbn [map]. rewrite word_poly_snoc.
  replace (map _ (seq 0 n)) with (map (fun i => N.b2n (N.testbit (N.div2 P) (N.of_nat (n - 1 - i)))) (seq 0 n)).
  - rewrite IH by (rewrite Nat2N.inj_succ, N.pow_succ_r' in HP; rewrite N.div2_div; apply N.div_lt_upper_bound; lia).
    replace (S n - 1 - (0 + n))%nat with 0%nat by lia. change (N.of_nat 0) with 0. rewrite N.bit0_odd. symmetry. apply N.div2_odd.
  - apply map_ext_in. intros i Hi. apply in_seq in Hi. rewrite N.div2_spec, N.shiftr_spec by lia. do 2 f_equal. lia.
Qed.
Lemma is_word_b2n (f : nat -> bool) l : is_word (map (fun i => N.b2n (f i)) l).
Proof. apply Forall_forall. intros x Hx. apply in_map_iff in Hx. destruct Hx as (i & <- & _). destruct (f i); auto. Qed.
Lemma nth_be_bits buf i : nth i (be_bits buf) 0 = N.b2n (be_bit_of buf i).
Proof.
  unfold be_bits. rewrite nth_map_seq. destruct (Nat.ltb_spec i (8 * length buf)) as [H|H]; [reflexivity|].
  unfold be_bit_of. rewrite nth_overflow by lia. reflexivity.
Qed.
Lemma length_be_bits buf : length (be_bits buf) = (8 * length buf)%nat.
Proof. unfold be_bits. rewrite map_length, seq_length. reflexivity. Qed.
Lemma is_word_be_bits buf : is_word (be_bits buf).
Proof. apply is_word_b2n. Qed.
Lemma is_word_firstn n w : is_word w -> is_word (firstn n w).
Proof. intros H. revert n. induction H; intros [|n]; cbn; constructor; auto. apply IHForall. Qed.

(** ** one step of the shift register *)
Lemma lfsr_step (g q D P : N) (d : bool) NP : (1 <= NP)%nat -> has_degree g (N.of_nat NP) -> P < 2 ^ N.of_nat NP -> N.lxor (N.shiftl D (N.of_nat NP)) P = clmul q g ->
  let P' := N.lxor ((2 * P) mod 2 ^ N.of_nat NP) (if xorb d (N.testbit P (N.of_nat (NP - 1))) then g mod 2 ^ N.of_nat NP else 0) in
  P' < 2 ^ N.of_nat NP /\ exists q', N.lxor (N.shiftl (2 * D + N.b2n d) (N.of_nat NP)) P' = clmul q' g.
Proof.
  intros HNP (G1 & G2) HP E P'. set (n := N.of_nat NP) in *. assert (P0 : 2 ^ n <> 0) by (apply N.pow_nonzero; discriminate).
  split.
  { apply lt_lxor; [apply N.mod_lt; exact P0|]. destruct (xorb _ _); [apply N.mod_lt; exact P0|lia]. }
  set (t := N.testbit P (N.of_nat (NP - 1))) in *.
  assert (E2 : 2 * P = N.lxor ((2 * P) mod 2 ^ n) (if t then 2 ^ n else 0)).
  { apply N.bits_inj. intros j. rewrite N.lxor_spec, tb_mod. destruct (N.ltb_spec j n) as [H|H].
    - rewrite andb_true_r. destruct t; rewrite ?N.bits_0, ?xorb_false_r; [|reflexivity]. rewrite pow2_tb. replace (n =? j) with false by lia. rewrite xorb_false_r. reflexivity.
    - rewrite andb_false_r, xorb_false_l. replace j with (N.succ (N.pred j)) by lia. rewrite N.testbit_even_succ by lia. destruct (N.eq_dec j n) as [->|Hne].
      + replace (N.testbit P (N.pred n)) with t by (unfold t; f_equal; lia). destruct t; [rewrite pow2_tb; symmetry; apply N.eqb_eq; lia|rewrite N.bits_0; reflexivity].
      + rewrite (testbit_high n P) by (try exact HP; lia). destruct t; [rewrite pow2_tb; symmetry; apply N.eqb_neq; lia|rewrite N.bits_0; reflexivity]. }
  assert (Eg : g = N.lxor (2 ^ n) (g mod 2 ^ n)).
  { apply N.bits_inj. intros j. rewrite N.lxor_spec, tb_mod, pow2_tb. destruct (N.ltb_spec j n) as [H|H]; [replace (n =? j) with false by lia; rewrite andb_true_r, xorb_false_l; reflexivity|].
    rewrite andb_false_r, xorb_false_r. assert (L : N.log2 g = n) by (apply N.log2_unique'; [lia|lia|rewrite <- N.add_1_r; lia] || (apply N.log2_unique; [lia|rewrite <- N.add_1_r; lia])).
    destruct (N.eqb_spec n j) as [<-|Hne]; [rewrite <- L; apply N.bit_log2; lia|]. apply N.bits_above_log2. lia. }
  exists (N.lxor (2 * q) (if xorb d t then 1 else 0)).
  rewrite clmul_lxor_l, clmul_dbl_l, <- E.
  assert (ES : N.shiftl (2 * D + N.b2n d) n = N.lxor (2 * N.shiftl D n) (if d then 2 ^ n else 0)).
  { assert (DD : 2 * D + N.b2n d = N.lxor (2 * D) (N.b2n d)) by (destruct d; [destruct D; reflexivity|cbn; rewrite N.add_0_r, N.lxor_0_r; reflexivity]).
    rewrite DD, N.shiftl_lxor. f_equal; [rewrite !N.shiftl_mul_pow2; lia|]. destruct d; cbn [N.b2n]; [apply N.shiftl_1_l|apply N.shiftl_0_l]. }
  assert (EL : 2 * N.lxor (N.shiftl D n) P = N.lxor (2 * N.shiftl D n) (2 * P)).
  { rewrite <- !N.double_spec. rewrite !N.double_spec. apply N.bits_inj. intros [|k]; [rewrite N.lxor_spec, !N.testbit_even_0; reflexivity|].
    rewrite N.lxor_spec. replace (N.pos k) with (N.succ (N.pred (N.pos k))) by lia. rewrite !N.testbit_even_succ by lia. rewrite N.lxor_spec. reflexivity. }
  rewrite ES, EL, E2. unfold P'. replace (clmul (if xorb d t then 1 else 0) g) with (if xorb d t then N.lxor (2 ^ n) (g mod 2 ^ n) else 0) by (destruct (xorb d t); [rewrite clmul_1_l; symmetry; exact Eg|reflexivity]).
  set (A := 2 * N.shiftl D n). set (B := (2 * P) mod 2 ^ n). set (C := g mod 2 ^ n). set (T := 2 ^ n).
  apply N.bits_inj. intros j. destruct d, t; cbn [xorb]; rewrite !N.lxor_spec, ?N.bits_0; destruct (N.testbit A j), (N.testbit B j), (N.testbit C j), (N.testbit T j); reflexivity.
Qed.

Section P.
Variable NP : nat.
Hypothesis HNP : (1 <= NP)%nat.
Notation n := (N.of_nat NP).
Notation last := ((NP - 1) / 8)%nat.

(** ** packed encoder *)
(** the parity buffer [par] holds [P] followed by zero bits up to the end of the byte; the rest is that of [par0] *)
Definition prep (par0 par : list N) (P : N) : Prop :=
  bytes par /\ length par = length par0 /\ P < 2 ^ n /\ (forall i, (i < 8 * S last)%nat -> be_bit_of par i = ((i <? NP)%nat && N.testbit P (N.of_nat (NP - 1 - i)))%bool) /\
  forall k, (last < k)%nat -> nth k par 0 = nth k par0 0.
Definition sl (par : list N) (l : nat) : N := wrap 8 (N.lor (N.shiftl (nth l par 0) 1) (N.shiftr (nth (l + 1) par 0) 7)).
Lemma shift_bytes (body : nat -> list N -> res (list N)) (gv : nat -> N) par : (last < length par)%nat ->
  (forall l p, (l < last)%nat -> length p = length par -> body l p = Ok (upd p l (N.lxor (gv l) (sl p l)))) ->
  exists par', for_up 0 last body par = Ok par' /\ length par' = length par /\ forall k, nth k par' 0 = if (k <? last)%nat then N.lxor (gv k) (sl par k) else nth k par 0.
Proof.
  intros HL HB. edestruct (for_up_inv (fun m p => length p = length par /\ forall k, nth k p 0 = if (k <? m)%nat then N.lxor (gv k) (sl par k) else nth k par 0)) as (p & E & L & H).
  4: { exists p. split; [exact E|]. split; [exact L|exact H]. }
  - lia.
  - intros m p Hm (Lp & Hp). rewrite HB by (try exact Lp; lia). eexists. split; [reflexivity|]. split; [rewrite length_upd; exact Lp|].
    intros k. rewrite nth_upd. destruct (Nat.eqb_spec m k) as [<-|Hne].
    + replace (m <? length p)%nat with true by lia. replace (m <? S m)%nat with true by lia. cbn [andb]. f_equal. unfold sl. rewrite !Hp. replace (m <? m)%nat with false by lia. replace (m + 1 <? m)%nat with false by lia. reflexivity.
    + cbn [andb]. rewrite Hp. replace (k <? S m)%nat with (k <? m)%nat by lia. reflexivity.
  - split; [reflexivity|]. intros k. reflexivity.
Qed.
(** the new bits of a byte *)
Lemma sl_bit par i : bytes par -> (i / 8 < last)%nat -> N.testbit (sl par (i / 8)) (N.of_nat (7 - i mod 8)) = be_bit_of par (i + 1).
Proof.
  intros HB Hi. unfold sl. rewrite wrap_testbit, N.lor_spec, tb_shiftl, N.shiftr_spec by lia. replace (N.of_nat (7 - i mod 8) <? 8) with true by lia. rewrite andb_true_r. unfold be_bit_of.
  destruct (Nat.eq_dec (i mod 8) 7) as [E7|E7].
  - rewrite E7. cbn [Nat.sub N.of_nat]. replace (1 <=? 0) with false by reflexivity. cbn [andb orb]. replace ((i + 1) / 8)%nat with (i / 8 + 1)%nat by lia.
    replace ((i + 1) mod 8)%nat with 0%nat by lia. reflexivity.
  - replace (1 <=? N.of_nat (7 - i mod 8)) with true by lia. cbn [andb]. replace ((i + 1) / 8)%nat with (i / 8)%nat by lia.
    rewrite (testbit_high 8 (nth (i / 8 + 1) par 0)) by (try (apply bytes_nth; exact HB); lia). rewrite orb_false_r.
    replace (N.of_nat (7 - (i + 1) mod 8)) with (N.of_nat (7 - i mod 8) - 1) by lia. reflexivity.
Qed.
Lemma last_bit par i : (i / 8 = last)%nat -> N.testbit (wrap 8 (N.shiftl (nth last par 0) 1)) (N.of_nat (7 - i mod 8)) = if (i mod 8 =? 7)%nat then false else be_bit_of par (i + 1).
Proof.
  intros Hi. rewrite wrap_testbit, tb_shiftl. replace (N.of_nat (7 - i mod 8) <? 8) with true by lia. rewrite andb_true_r. destruct (Nat.eqb_spec (i mod 8) 7) as [E|E].
  - rewrite E. reflexivity.
  - replace (1 <=? N.of_nat (7 - i mod 8)) with true by lia. cbn [andb]. unfold be_bit_of. replace ((i + 1) / 8)%nat with last by lia.
    replace (N.of_nat (7 - (i + 1) mod 8)) with (N.of_nat (7 - i mod 8) - 1) by lia. reflexivity.
Qed.
Lemma prep_step par0 par par' P (gv : nat -> N) (R : N) : (last < length par0)%nat -> prep par0 par P -> length par' = length par -> R < 2 ^ n ->
  (forall k, (k <= last)%nat -> gv k < 256) ->
  (forall i, (i < 8 * S last)%nat -> N.testbit (gv (i / 8)%nat) (N.of_nat (7 - i mod 8)) = ((i <? NP)%nat && N.testbit R (N.of_nat (NP - 1 - i)))%bool) ->
  (forall k, nth k par' 0 = if (k <? last)%nat then N.lxor (gv k) (sl par k) else if (k =? last)%nat then N.lxor (gv k) (wrap 8 (N.shiftl (nth last par 0) 1)) else nth k par 0) ->
  prep par0 par' (N.lxor ((2 * P) mod 2 ^ n) R).
Proof.
  intros HL (B & L & HP & T & Tl) L' HR HG HGV HN. assert (P0 : 2 ^ n <> 0) by (apply N.pow_nonzero; discriminate).
  split; [|split; [lia|split; [apply lt_lxor; [apply N.mod_lt; exact P0|exact HR]|split]]].
  - apply Forall_nth. intros k d Hk. rewrite (nth_indep _ d 0) by exact Hk. rewrite HN. change 256 with (2 ^ 8).
    destruct (Nat.ltb_spec k last); [apply lt_lxor; [apply HG; lia|apply wrap_lt]|]. destruct (Nat.eqb_spec k last); [apply lt_lxor; [apply HG; lia|apply wrap_lt]|].
    apply bytes_nth. exact B.
  - intros i Hi. unfold be_bit_of. rewrite HN.
    assert (EB : N.testbit (if (i / 8 <? last)%nat then N.lxor (gv (i / 8)%nat) (sl par (i / 8)) else if (i / 8 =? last)%nat then N.lxor (gv (i / 8)%nat) (wrap 8 (N.shiftl (nth last par 0) 1)) else nth (i / 8) par 0) (N.of_nat (7 - i mod 8)) =
       xorb ((i <? NP)%nat && N.testbit R (N.of_nat (NP - 1 - i))) (if (i =? 8 * last + 7)%nat then false else be_bit_of par (i + 1))).
    { destruct (Nat.ltb_spec (i / 8) last) as [C|C].
      - rewrite N.lxor_spec, HGV, sl_bit by assumption. replace (i =? 8 * last + 7)%nat with false by lia. reflexivity.
      - replace (i / 8 =? last)%nat with true by lia. rewrite N.lxor_spec, HGV, last_bit by (try exact Hi; lia). replace (i mod 8 =? 7)%nat with (i =? 8 * last + 7)%nat by lia. reflexivity. }
    rewrite EB. clear EB. rewrite N.lxor_spec, tb_mod.
    assert (EO : (if (i =? 8 * last + 7)%nat then false else be_bit_of par (i + 1)) = ((i + 1 <? NP)%nat && N.testbit P (N.of_nat (NP - 1 - (i + 1))))%bool).
    { destruct (Nat.eqb_spec i (8 * last + 7)) as [->|Hne]; [replace (8 * last + 7 + 1 <? NP)%nat with false by lia; reflexivity|]. apply T. lia. }
    rewrite EO. clear EO. destruct (Nat.ltb_spec i NP) as [C|C]; [|replace (i + 1 <? NP)%nat with false by lia; reflexivity]. cbn [andb].
    replace (N.of_nat (NP - 1 - i) <? n) with true by lia. rewrite andb_true_r, xorb_comm. f_equal.
    destruct (Nat.ltb_spec (i + 1) NP) as [C'|C'].
    + cbn [andb]. replace (N.of_nat (NP - 1 - i)) with (N.succ (N.of_nat (NP - 1 - (i + 1)))) by lia. rewrite N.testbit_even_succ by lia. reflexivity.
    + cbn [andb]. replace (N.of_nat (NP - 1 - i)) with 0 by lia. symmetry. apply N.testbit_even_0.
  - intros k Hk. rewrite HN. replace (k <? last)%nat with false by lia. replace (k =? last)%nat with false by lia. apply Tl. exact Hk.
Qed.

Lemma encode_ok K gen g data parity len : has_degree g n -> grep' NP gen g -> bytes data -> bytes parity -> (1 <= len <= K)%nat -> (len <= 8 * length data)%nat -> (last < length parity)%nat ->
  exists par', bch_encode K NP gen data parity len = Ok par' /\ exists P, prep parity par' P /\ poly_divides g (N.lxor (N.shiftl (word_poly (firstn len (be_bits data))) n) P).
Proof.
  intros HD (GB & GL & GT) BD BP Hlen HLD HLP. unfold bch_encode. replace ((0 <? len) && (len <=? K))%nat%bool with true by lia. cbn [assert_ bind].
  assert (P0 : 2 ^ n <> 0) by (apply N.pow_nonzero; discriminate).
  edestruct (for_up_inv (fun m p => bytes p /\ length p = length parity /\ forall k, nth k p 0 = if (k <? m)%nat then 0 else nth k parity 0)) as (p0 & E0 & B0 & L0 & H0).
  4: { rewrite E0. cbn [bind].
    edestruct (for_up_inv (fun i p => exists P, prep parity p P /\ exists q, N.lxor (N.shiftl (word_poly (firstn i (be_bits data))) n) P = clmul q g)) as (par' & E & P & HP & HQ).
    4: { exists par'. split; [exact E|]. exists P. split; [exact HP|exact HQ]. }
    - lia.
    - intros i p Hi (P & HP & q & HQ). cbv beta. pose proof HP as (Bp & Lp & HPn & HT & HTl). rewrite get_be_bit_ok by (try exact BD; lia). cbn [bind].
      change 0%Z with (Z.of_nat 0). rewrite get_be_bit_ok by (try exact Bp; lia). cbn [bind].
      assert (ETop : be_bit_of p 0 = N.testbit P (N.of_nat (NP - 1))) by (rewrite HT by lia; replace (0 <? NP)%nat with true by lia; cbn [andb]; f_equal; lia).
      assert (EW : word_poly (firstn (S i) (be_bits data)) = 2 * word_poly (firstn i (be_bits data)) + N.b2n (be_bit_of data i)).
      { rewrite (firstn_snoc _ i 0) by (rewrite length_be_bits; lia). rewrite word_poly_snoc, nth_be_bits. reflexivity. }
      set (d := be_bit_of data i) in *. destruct (lfsr_step g q _ P d NP HNP HD HPn HQ) as (HP' & q' & HQ'). rewrite <- EW in HQ'. rewrite <- ETop in HP', HQ'.
      replace (negb (Bool.eqb d (be_bit_of p 0))) with (xorb d (be_bit_of p 0)) by (destruct d, (be_bit_of p 0); reflexivity).
      destruct (xorb d (be_bit_of p 0)).
      + destruct (shift_bytes (fun l parity => g <- rd gen l ;; s <- bch_slb1 parity l ;; wr parity l (N.lxor g s)) (fun l => nth l gen 0) p) as (p1 & E1 & L1 & H1).
        { lia. } { intros l pp Hl Lpp. rewrite (rd_nth gen l 0) by lia. cbn [bind]. unfold bch_slb1. rewrite (rd_nth pp l 0), (rd_nth pp (l + 1) 0) by lia. cbn [bind]. rewrite wr_Ok by lia. reflexivity. }
        assert (HLa : nth last p1 0 = nth last p 0) by (rewrite H1, Nat.ltb_irrefl; reflexivity).
        rewrite E1. cbn [bind]. rewrite (rd_nth gen last 0) by lia. cbn [bind]. rewrite (rd_nth p1 last 0) by lia. cbn [bind]. rewrite wr_Ok by lia. eexists. split; [reflexivity|].
        eexists. split; [|exists q'; exact HQ']. apply (prep_step parity p _ P (fun l => nth l gen 0) (g mod 2 ^ n)); try assumption.
        * rewrite length_upd. lia.
        * apply N.mod_lt. exact P0.
        * intros k _. apply bytes_nth. exact GB.
        * intros j Hj. change (N.testbit (nth (j / 8) gen 0) (N.of_nat (7 - j mod 8))) with (be_bit_of gen j). rewrite GT, tb_mod. destruct (Nat.ltb_spec j NP); [|reflexivity]. cbn [andb]. replace (N.of_nat (NP - 1 - j) <? n) with true by lia. rewrite andb_true_r. reflexivity.
        * intros k. rewrite nth_upd, HLa. destruct (Nat.eqb_spec last k) as [<-|Hne].
          -- replace (last <? length p1)%nat with true by lia. cbn [andb]. rewrite Nat.ltb_irrefl, Nat.eqb_refl.
             apply N.bits_inj. intros j. rewrite wrap_testbit, !N.lxor_spec, wrap_testbit. destruct (N.ltb_spec j 8) as [C|C]; [rewrite !andb_true_r; reflexivity|]. rewrite !andb_false_r, xorb_false_r.
             symmetry. apply (testbit_high 8); [apply bytes_nth; exact GB|exact C].
          -- cbn [andb]. rewrite H1. replace (k =? last)%nat with false by lia. reflexivity.
      + destruct (shift_bytes (fun l parity => s <- bch_slb1 parity l ;; wr parity l s) (fun l => 0) p) as (p1 & E1 & L1 & H1).
        { lia. } { intros l pp Hl Lpp. unfold bch_slb1. rewrite (rd_nth pp l 0), (rd_nth pp (l + 1) 0) by lia. cbn [bind]. rewrite wr_Ok by lia. rewrite N.lxor_0_l. reflexivity. }
        assert (HLa : nth last p1 0 = nth last p 0) by (rewrite H1, Nat.ltb_irrefl; reflexivity).
        rewrite E1. cbn [bind]. rewrite (rd_nth p1 last 0) by lia. cbn [bind]. rewrite wr_Ok by lia. eexists. split; [reflexivity|].
        eexists. split; [|exists q'; exact HQ']. apply (prep_step parity p _ P (fun l => 0) 0); try assumption.
        * rewrite length_upd. lia.
        * lia.
        * intros k _. lia.
        * intros j Hj. rewrite !N.bits_0, andb_false_r. reflexivity.
        * intros k. rewrite nth_upd, HLa. destruct (Nat.eqb_spec last k) as [<-|Hne].
          -- replace (last <? length p1)%nat with true by lia. cbn [andb]. rewrite Nat.ltb_irrefl, Nat.eqb_refl, N.lxor_0_l. reflexivity.
          -- cbn [andb]. rewrite H1. replace (k =? last)%nat with false by lia. reflexivity.
    - exists 0. split; [|exists 0; reflexivity]. split; [exact B0|]. split; [exact L0|]. split; [lia|]. split.
      + intros i Hi. unfold be_bit_of. rewrite H0. replace (i / 8 <? S last)%nat with true by lia. rewrite !N.bits_0, andb_false_r. reflexivity.
      + intros k Hk. rewrite H0. replace (k <? S last)%nat with false by lia. reflexivity. }
  - lia.
  - intros m p Hm (Bp & Lp & Hp). cbv beta. rewrite wr_Ok by lia. eexists. split; [reflexivity|]. split; [apply bytes_upd; [exact Bp|lia]|]. split; [rewrite length_upd; exact Lp|].
    intros k. rewrite nth_upd. destruct (Nat.eqb_spec m k) as [<-|Hne]; [replace (m <? length p)%nat with true by lia; replace (m <? S m)%nat with true by lia; reflexivity|].
    cbn [andb]. rewrite Hp. replace (k <? S m)%nat with (k <? m)%nat by lia. reflexivity.
  - split; [exact BP|]. split; [reflexivity|]. intros k. reflexivity.
Qed.

(** ** reference encoder *)
Variable G : gf.
Hypothesis OK : gf_ok G.
Lemma bit_lt (b : bool) : N.b2n b < 2 ^ gf_M G.
Proof. pose proof (Q1' G OK). destruct b; cbn; lia. Qed.
Lemma mkV_bit (b : bool) : mkValueI G (N.to_nat (N.b2n b)) = Ok (N.b2n b).
Proof. rewrite (rv_mkV G OK) by (rewrite N2Nat.id; apply bit_lt). rewrite N2Nat.id. reflexivity. Qed.
Lemma add_bits a b : v_add G (N.b2n a) (N.b2n b) = Ok (N.b2n (xorb a b)) /\ v_add_assign G (N.b2n a) (N.b2n b) = Ok (N.b2n (xorb a b)).
Proof.
  assert (E : v_add G (N.b2n a) (N.b2n b) = Ok (N.b2n (xorb a b))) by (rewrite (v_add_ok G OK) by apply bit_lt; destruct a, b; reflexivity).
  split; [exact E|]. unfold v_add_assign. rewrite (okV_ok G OK) by apply bit_lt. exact E.
Qed.
Lemma neq_bits a b : v_neq G (N.b2n a) (N.b2n b) = Ok (xorb a b).
Proof. unfold v_neq. rewrite !(okV_ok G OK) by apply bit_lt. cbn [bind]. destruct a, b; reflexivity. Qed.

Definition rrep (gen : list N) (v : N) : Prop := length gen = S NP /\ v < 2 ^ N.of_nat (NP + 1) /\ forall i, (i <= NP)%nat -> nth i gen 0 = N.b2n (N.testbit v (N.of_nat i)).
Lemma rrep_upd gen v i b : rrep gen v -> (i <= NP)%nat -> rrep (upd gen i (N.b2n b)) (N.lxor v (if Bool.eqb (N.testbit v (N.of_nat i)) b then 0 else 2 ^ N.of_nat i)).
Proof.
  intros (L & HV & HT) Hi. split; [rewrite length_upd; exact L|]. split.
  - apply lt_lxor; [exact HV|]. destruct (Bool.eqb _ _); [apply N.neq_0_lt_0, N.pow_nonzero; discriminate|apply N.pow_lt_mono_r; lia].
  - intros j Hj. rewrite nth_upd, N.lxor_spec. destruct (Nat.eqb_spec i j) as [<-|Hne].
    + replace (i <? length gen)%nat with true by lia. cbn [andb]. destruct (N.testbit v (N.of_nat i)), b; cbn [Bool.eqb]; rewrite ?N.bits_0, ?pow2_tb, ?N.eqb_refl; reflexivity.
    + cbn [andb]. rewrite HT by exact Hj. destruct (Bool.eqb _ _); rewrite ?N.bits_0, ?pow2_tb, ?xorb_false_r; [reflexivity|]. replace (N.of_nat i =? N.of_nat j) with false by lia. rewrite xorb_false_r. reflexivity.
Qed.
Definition rmul_body (m : N) (md : nat) : nat -> list N -> res (list N) := fun i generator =>
  x <- rd generator i ;;
  if negb (nz x) then Ok generator else
  v <- mkValueI G (N.to_nat (N.b2n (N.odd m))) ;;
  generator <- wr generator i v ;;
  for_up 1 (S md) (fun j generator =>
    v <- mkValueI G (N.to_nat (N.b2n (N.odd (N.shiftr m (N.of_nat j))))) ;;
    x <- rd generator (i + j) ;;
    x <- v_add_assign G x v ;;
    wr generator (i + j) x) generator.
Lemma rmul_ok gen g m : rrep gen g -> g <> 0 -> 2 <= m -> (N.to_nat (N.log2 g) + N.to_nat (N.log2 m) <= NP)%nat ->
  exists gen', for_down (S (S (N.to_nat (N.log2 g)))) 0 (rmul_body m (N.to_nat (N.log2 m))) gen = Ok gen' /\ rrep gen' (clmul g m).
Proof.
  intros HG Hg Hm2 Hd. assert (Hm : m <> 0) by lia. assert (Hl : 1 <= N.log2 m) by (change 1 with (N.log2 2); apply N.log2_le_mono; exact Hm2).
  set (dg := N.to_nat (N.log2 g)) in *. set (md := N.to_nat (N.log2 m)) in *.
  edestruct (for_down_inv (fun i gen => rrep gen (mstate g m (N.of_nat i)))) as (gen' & E & HI).
  4: { exists gen'. split; [exact E|]. rewrite <- (mstate_0 g m). exact HI. }
  - lia.
  - intros i gn Hi HR. unfold rmul_body. replace (N.of_nat (S i)) with (N.of_nat i + 1) in HR by lia.
    assert (Hle : (i <= NP)%nat) by lia.
    pose proof HR as (L & _ & HT). rewrite (rd_nth gn i 0) by lia. cbn [bind]. rewrite HT by exact Hle. rewrite mstate_low by lia. rewrite (mstate_step g m (N.of_nat i)).
    destruct (N.testbit g (N.of_nat i)) eqn:B; cbn [N.b2n nz N.eqb negb]; [|eauto].
    assert (Hid : (i <= dg)%nat). { destruct (Nat.le_gt_cases i dg) as [H|H]; [exact H|]. exfalso. rewrite N.bits_above_log2 in B by lia. discriminate. }
    rewrite mkV_bit. cbn [bind]. rewrite wr_Ok by lia. cbn [bind]. pose proof (rrep_upd gn _ i (N.odd m) HR Hle) as H1. rewrite <- (partial_1 NP HNP) in H1 by (rewrite mstate_low by lia; exact B).
    edestruct (for_up_inv (fun j gen => rrep gen (partial (mstate g m (N.of_nat i + 1)) m i j))) as (g2 & E2 & H2).
    4: { exists g2. split; [exact E2|]. rewrite partial_all in H2; [exact H2|]. apply lt_log2; [exact Hm|lia]. }
    * lia.
    * intros j g3 Hj H3. cbv beta. rewrite mkV_bit. cbn [bind]. pose proof H3 as (L3 & _ & HT3). rewrite (rd_nth g3 (i + j) 0) by lia. cbn [bind]. rewrite HT3 by lia.
      rewrite (proj2 (add_bits _ _)). cbn [bind]. rewrite wr_Ok by lia. eexists. split; [reflexivity|]. rewrite (partial_S NP HNP), odd_shiftr.
      pose proof (rrep_upd g3 _ (i + j) (xorb (N.testbit (partial (mstate g m (N.of_nat i + 1)) m i j) (N.of_nat (i + j))) (N.testbit m (N.of_nat j))) H3 ltac:(lia)) as H4.
      replace (if N.testbit m (N.of_nat j) then 2 ^ N.of_nat (i + j) else 0) with (if Bool.eqb (N.testbit (partial (mstate g m (N.of_nat i + 1)) m i j) (N.of_nat (i + j))) (xorb (N.testbit (partial (mstate g m (N.of_nat i + 1)) m i j) (N.of_nat (i + j))) (N.testbit m (N.of_nat j))) then 0 else 2 ^ N.of_nat (i + j)); [exact H4|].
      destruct (N.testbit (partial _ _ _ _) _), (N.testbit m (N.of_nat j)); reflexivity.
    * exact H1.
  - rewrite mstate_hi; [exact HG|]. apply lt_log2; [exact Hg|lia].
Qed.
Definition reach_body : N -> list N * nat -> res (list N * nat) := fun m '(generator, generator_degree) =>
  assert_ (nz m && (m <? 2 ^ (gf_M G + 1))) ;;;
  m_degree <- bchref_degree m (N.to_nat (gf_M G)) ;;
  assert_ (generator_degree + m_degree <=? NP + 1)%nat ;;;
  generator <- for_down (S generator_degree) 0 (rmul_body m m_degree) generator ;;
  Ok (generator, generator_degree + m_degree)%nat.
Lemma reach_ok ms : forall gen g, rrep gen g -> g <> 0 -> Forall (fun m => 2 <= m /\ m < 2 ^ (gf_M G + 1)) ms -> N.log2 (fold_left clmul ms g) <= N.of_nat NP ->
  exists gen', bch_each ms reach_body (gen, S (N.to_nat (N.log2 g))) = Ok (gen', S (N.to_nat (N.log2 (fold_left clmul ms g)))) /\ rrep gen' (fold_left clmul ms g).
Proof.
  induction ms as [|m ms IH]; intros gen g HG Hg HM HL; cbn [bch_each fold_left] in *; [eauto|].
  inversion HM as [|? ? (Hm & Hm') HM']; subst. unfold reach_body at 1. unfold nz at 1. replace (negb (m =? 0)) with true by lia. replace (m <? 2 ^ (gf_M G + 1)) with true by lia. cbn [andb assert_ bind].
  assert (Hm0 : m <> 0) by lia. apply lt_log2 in Hm' as Lm; [|exact Hm0]. rewrite refdegree_ok by (try exact Hm0; lia). cbn [bind].
  destruct (clmul_top g m Hg Hm0) as (Hgm & Lgm). destruct (fold_clmul_pos ms (clmul g m) Hgm) as (_ & HH); [apply Forall_impl with (2 := HM'); intros x Hx; lia|].
  replace (S (N.to_nat (N.log2 g)) + N.to_nat (N.log2 m) <=? NP + 1)%nat with true by lia. cbn [assert_ bind].
  destruct (rmul_ok gen g m HG Hg Hm ltac:(lia)) as (gen' & E & HG'). rewrite E. cbn [bind].
  replace (S (N.to_nat (N.log2 g)) + N.to_nat (N.log2 m))%nat with (S (N.to_nat (N.log2 (clmul g m)))) by lia. apply IH; assumption.
Qed.
Lemma refgenerator_ok ms : Forall (fun m => 2 <= m /\ m < 2 ^ (gf_M G + 1)) ms -> N.log2 (poly_product ms) = N.of_nat NP ->
  exists gen, bchref_generator G NP ms = Ok gen /\ rrep gen (poly_product ms).
Proof.
  intros HM HL. unfold bchref_generator. rewrite (mkV1 G OK), (mkV0 G OK). cbn [bind].
  assert (H1 : rrep (1 :: repeat 0 NP) 1).
  { split; [cbn [length]; rewrite repeat_length; reflexivity|]. split; [change 1 with (2 ^ 0) at 1; apply N.pow_lt_mono_r; lia|]. intros [|i] Hi; cbn [nth]; [reflexivity|]. rewrite nth_repeat.
    rewrite (testbit_high 1 1) by (try (cbn; lia); lia). reflexivity. }
  destruct (reach_ok ms _ 1 H1 ltac:(discriminate) HM) as (gen & E & HG). { change (fold_left clmul ms 1) with (poly_product ms). lia. }
  change (S (N.to_nat (N.log2 1))) with 1%nat in E. change (fold_left clmul ms 1) with (poly_product ms) in *. unfold reach_body, rmul_body in E. rewrite E. cbn [bind].
  replace (S (N.to_nat (N.log2 (poly_product ms))) =? NP + 1)%nat with true by lia. cbn [assert_ bind]. eauto.
Qed.

(** the parity array of values *)
Definition vrep (par0 par : list N) (P : N) : Prop :=
  length par = length par0 /\ P < 2 ^ n /\ (forall i, (i < NP)%nat -> nth i par 0 = N.b2n (N.testbit P (N.of_nat (NP - 1 - i)))) /\ forall k, (NP <= k)%nat -> nth k par 0 = nth k par0 0.
Lemma is_bit w i : is_word w -> exists b, nth i w 0 = N.b2n b.
Proof.
  intros H. destruct (Nat.lt_ge_cases i (length w)) as [L|L]; [|rewrite nth_overflow by exact L; exists false; reflexivity].
  destruct (proj1 (Forall_nth (fun b => b = 0 \/ b = 1) w) H i 0 L) as [E|E]; rewrite E; [exists false|exists true]; reflexivity.
Qed.
Lemma vstep par0 par P (R : N) body : (NP <= length par0)%nat -> vrep par0 par P -> R < 2 ^ n ->
  (forall j p, (1 <= j < NP)%nat -> length p = length par -> nth j p 0 = nth j par 0 -> body j p = Ok (upd p (j - 1) (N.b2n (xorb (N.testbit R (N.of_nat (NP - j))) (N.testbit P (N.of_nat (NP - 1 - j))))))) ->
  exists p', for_up 1 NP body par = Ok p' /\ length p' = length par /\ vrep par0 (upd p' (NP - 1) (N.b2n (N.testbit R 0))) (N.lxor ((2 * P) mod 2 ^ n) R).
Proof.
  intros HL (L & HP & T & Tl) HR HB. assert (P0 : 2 ^ n <> 0) by (apply N.pow_nonzero; discriminate).
  edestruct (for_up_inv (fun j p => length p = length par /\ forall k, nth k p 0 = if (k + 1 <? j)%nat then N.b2n (xorb (N.testbit R (N.of_nat (NP - 1 - k))) (N.testbit P (N.of_nat (NP - 2 - k)))) else nth k par 0)) as (p & E & Lp & Hp).
  4: { exists p. split; [exact E|]. split; [exact Lp|]. split; [rewrite length_upd; lia|]. split; [apply lt_lxor; [apply N.mod_lt; exact P0|exact HR]|]. split.
    - intros i Hi. rewrite nth_upd, Hp, N.lxor_spec, tb_mod. replace (N.of_nat (NP - 1 - i) <? n) with true by lia. rewrite andb_true_r. destruct (Nat.eqb_spec (NP - 1) i) as [<-|Hne].
      + replace (NP - 1 <? length p)%nat with true by lia. cbn [andb]. rewrite Nat.sub_diag. change (N.of_nat 0) with 0. rewrite N.testbit_even_0, xorb_false_l. reflexivity.
      + cbn [andb]. replace (i + 1 <? NP)%nat with true by lia. f_equal. rewrite xorb_comm. f_equal. replace (N.of_nat (NP - 1 - i)) with (N.succ (N.of_nat (NP - 2 - i))) by lia. rewrite N.testbit_even_succ by lia. reflexivity.
    - intros k Hk. rewrite nth_upd_neq by lia. rewrite Hp. replace (k + 1 <? NP)%nat with false by lia. apply Tl. exact Hk. }
  - lia.
  - intros j p Hj (Lp & Hp). rewrite HB; [|lia|exact Lp|rewrite Hp; replace (j + 1 <? j)%nat with false by lia; reflexivity]. eexists. split; [reflexivity|]. split; [rewrite length_upd; exact Lp|].
    intros k. rewrite nth_upd. destruct (Nat.eqb_spec (j - 1) k) as [E|Hne].
    + replace (j - 1 <? length p)%nat with true by lia. cbn [andb]. replace (k + 1 <? S j)%nat with true by lia. do 2 f_equal; [f_equal; f_equal; lia|f_equal; lia].
    + cbn [andb]. rewrite Hp. replace (k + 1 <? S j)%nat with (k + 1 <? j)%nat by lia. reflexivity.
  - split; [reflexivity|]. intros k. replace (k + 1 <? 1)%nat with false by lia. reflexivity.
Qed.
Lemma refencode_ok K gen g data parity len : has_degree g n -> rrep gen g -> is_word data -> (1 <= len <= K)%nat -> (len <= length data)%nat -> (NP <= length parity)%nat ->
  exists par', bchref_encode G K NP gen data parity len = Ok par' /\ exists P, vrep parity par' P /\ poly_divides g (N.lxor (N.shiftl (word_poly (firstn len data)) n) P).
Proof.
  intros HD (GL & GV & GT) WD Hlen HLD HLP. unfold bchref_encode. replace ((0 <? len) && (len <=? K))%nat%bool with true by lia. cbn [assert_ bind].
  assert (P0 : 2 ^ n <> 0) by (apply N.pow_nonzero; discriminate).
  edestruct (for_up_inv (fun m p => length p = length parity /\ forall k, nth k p 0 = if (k <? m)%nat then 0 else nth k parity 0)) as (p0 & E0 & L0 & H0).
  4: { rewrite E0. cbn [bind].
    edestruct (for_up_inv (fun i p => exists P, vrep parity p P /\ exists q, N.lxor (N.shiftl (word_poly (firstn i data)) n) P = clmul q g)) as (par' & E & P & HP & HQ).
    4: { exists par'. split; [exact E|]. exists P. split; [exact HP|exact HQ]. }
    - lia.
    - intros i p Hi (P & HP & q & HQ). cbv beta. pose proof HP as (Lp & HPn & HT & HTl). rewrite (rd_nth data i 0) by lia. cbn [bind]. rewrite (rd_nth p 0 0) by lia. cbn [bind].
      rewrite HT by lia. rewrite Nat.sub_0_r. destruct (is_bit data i WD) as (d & Ed). rewrite Ed, neq_bits. cbn [bind].
      assert (EW : word_poly (firstn (S i) data) = 2 * word_poly (firstn i data) + N.b2n d).
      { rewrite (firstn_snoc _ i 0) by lia. rewrite word_poly_snoc, Ed. reflexivity. }
      destruct (lfsr_step g q _ P d NP HNP HD HPn HQ) as (HP' & q' & HQ'). rewrite <- EW in HQ'.
      destruct (xorb d (N.testbit P (N.of_nat (NP - 1)))).
      + destruct (vstep parity p P (g mod 2 ^ n) (fun j parity => g <- rd gen (NP - j) ;; p <- rd parity j ;; s <- v_add G g p ;; wr parity (j - 1) s)) as (p1 & E1 & L1 & H1); try assumption.
        { apply N.mod_lt. exact P0. }
        { intros j pp Hj Lpp Epp. rewrite (rd_nth gen (NP - j) 0) by lia. cbn [bind]. rewrite (rd_nth pp j 0) by lia. cbn [bind]. rewrite Epp, HT, GT by lia. rewrite (proj1 (add_bits _ _)). cbn [bind].
          rewrite wr_Ok by lia. rewrite tb_mod. replace (N.of_nat (NP - j) <? n) with true by lia. rewrite andb_true_r. reflexivity. }
        rewrite E1. cbn [bind]. rewrite (rd_nth gen 0 0) by lia. cbn [bind]. rewrite wr_Ok by lia. eexists. split; [reflexivity|]. eexists. split; [|exists q'; exact HQ'].
        rewrite GT by lia. rewrite tb_mod in H1. replace (0 <? n) with true in H1 by lia. rewrite andb_true_r in H1. exact H1.
      + destruct (vstep parity p P 0 (fun j parity => p <- rd parity j ;; wr parity (j - 1) p)) as (p1 & E1 & L1 & H1); try assumption.
        { lia. }
        { intros j pp Hj Lpp Epp. rewrite (rd_nth pp j 0) by lia. cbn [bind]. rewrite Epp, HT by lia. rewrite wr_Ok by lia. rewrite N.bits_0, xorb_false_l. reflexivity. }
        rewrite E1. cbn [bind]. rewrite (mkV0 G OK). cbn [bind]. rewrite wr_Ok by lia. eexists. split; [reflexivity|]. eexists. split; [|exists q'; exact HQ'].
        exact H1.
    - exists 0. split; [|exists 0; reflexivity]. split; [exact L0|]. split; [lia|]. split.
      + intros i Hi. rewrite H0. replace (i <? NP)%nat with true by lia. rewrite !N.bits_0. reflexivity.
      + intros k Hk. rewrite H0. replace (k <? NP)%nat with false by lia. reflexivity. }
  - lia.
  - intros m p Hm (Lp & Hp). cbv beta. rewrite (mkV0 G OK). cbn [bind]. rewrite wr_Ok by lia. eexists. split; [reflexivity|]. split; [rewrite length_upd; exact Lp|].
    intros k. rewrite nth_upd. destruct (Nat.eqb_spec m k) as [<-|Hne]; [replace (m <? length p)%nat with true by lia; replace (m <? S m)%nat with true by lia; reflexivity|].
    cbn [andb]. rewrite Hp. replace (k <? S m)%nat with (k <? m)%nat by lia. reflexivity.
  - split; [reflexivity|]. intros k. reflexivity.
Qed.
End P.
