(** Properties C05, C06: crc.hh. *)
From Verif Require Import Cpp Model_crc Spec_bits Spec_crc Proof_crc.
Local Open Scope N_scope.

(** C05: whatever mix of bits, bytes and words is fed, the register equals the one obtained by feeding
    the same bits one at a time through operator()(bool). [w] is the register width, w = 8 is the
    specialised class. *)
Theorem C05_crc_table_is_bit_serial : forall w poly start l,
  8 <= w -> poly < 2 ^ w -> start < 2 ^ w -> Forall in_ok l ->
  exists v, crc_of w poly start l = Ok v /\ v < 2 ^ w /\
            crc_of w poly start (map InBit (flat_map in_bits l)) = Ok v.
Proof. exact crc_serial. Qed.
Print Assumptions C05_crc_table_is_bit_serial.

Example C05_nonvacuous :
  Forall in_ok [In8 0x48; InBit true; In32 0xDEADBEEF; In64 0x0123456789ABCDEF] /\
  crc_of 32 0xC8DF352F 0 (map In8 [72; 101; 108; 108; 111; 32; 87; 111; 114; 108; 100; 33]) = Ok 0xAB94FCAB.
Proof. split; [repeat constructor|vm_compute; reflexivity]. Qed.

(** feeding changes only the register *)
Lemma crc_byte_same o d o' : crc_byte o d = Ok o' -> o' = crc_set o (crc_reg o').
Proof.
  unfold crc_byte. destruct (crc_w o =? 8); destruct (rdu _ _); intros E; try discriminate; cbn [bind] in E; injection E as <-; reflexivity.
Qed.
Lemma crc_set_set o v v' : crc_set (crc_set o v) v' = crc_set o v'.
Proof. reflexivity. Qed.
Lemma crc_feed_same o x o' : crc_feed o x = Ok o' -> o' = crc_set o (crc_reg o').
Proof.
  assert (forall o d (k : crc_obj -> res crc_obj) o', (o <- crc_byte o d ;; k o) = Ok o' ->
    (forall o1, k o1 = Ok o' -> o' = crc_set o1 (crc_reg o')) -> o' = crc_set o (crc_reg o')) as Hb.
  { intros o1 d k o2 E H. destruct (crc_byte o1 d) as [o3| | |] eqn:E1; try discriminate. cbn [bind] in E.
    rewrite (H o3 E) at 1. rewrite (crc_byte_same o1 d o3 E1). reflexivity. }
  destruct x; cbn [crc_feed]; intros E; [injection E as <-; reflexivity|exact (crc_byte_same _ _ _ E)| | |];
  unfold crc_u16, crc_u32, crc_u64 in E; repeat (refine (Hb _ _ _ _ E _); clear E; intros ? E; cbv beta in E); exact (crc_byte_same _ _ _ E).
Qed.
Lemma crc_run_same o l o' : crc_run o l = Ok o' -> o' = crc_set o (crc_reg o').
Proof.
  revert o. induction l as [|x l IH]; intros o E; cbn [crc_run] in E; [injection E as <-; destruct o; reflexivity|].
  destruct (crc_feed o x) as [o1| | |] eqn:E1; try discriminate. cbn [bind] in E. rewrite (IH o1 E) at 1.
  rewrite (crc_feed_same o x o1 E1). reflexivity.
Qed.
Lemma crc_new_reg w poly a b o r : crc_new w poly a = Ok o -> crc_new w poly b = Ok (crc_reset (crc_set o r) b).
Proof.
  unfold crc_new. match goal with |- context [for_up ?x ?y ?f ?u] => generalize (for_up x y f u) end.
  intros [lut| | |]; cbn [bind]; intros E; [injection E as <-; reflexivity|discriminate E|discriminate E|discriminate E].
Qed.

(** C05: an object is reused with reset: whatever was fed before, the result is that of a new object with that start
    value *)
Theorem C05_reset : forall w poly start l v l',
  8 <= w -> poly < 2 ^ w -> start < 2 ^ w -> Forall in_ok l -> v < 2 ^ w -> Forall in_ok l' ->
  exists o o1 o2 r, crc_new w poly start = Ok o /\ crc_run o l = Ok o1 /\ crc_get (crc_reset o1 v) = v /\
    crc_run (crc_reset o1 v) l' = Ok o2 /\ crc_get o2 = r /\ crc_of w poly v l' = Ok r.
Proof.
  intros w poly start l v l' Hw Hp Hs Hl Hv Hl'.
  destruct (crc_serial w poly start l Hw Hp Hs Hl) as (x & E & _).
  destruct (crc_serial w poly v l' Hw Hp Hv Hl') as (y & E' & _).
  unfold crc_of in E. destruct (crc_new w poly start) as [o| | |] eqn:En; [|discriminate E|discriminate E|discriminate E]. cbn [bind] in E.
  destruct (crc_run o l) as [o1| | |] eqn:Er; [|discriminate E|discriminate E|discriminate E].
  assert (crc_new w poly v = Ok (crc_reset o1 v)) as En'.
  { rewrite (crc_run_same o l o1 Er). exact (crc_new_reg w poly start v o (crc_reg o1) En). }
  unfold crc_of in E'. rewrite En' in E'. cbn [bind] in E'. destruct (crc_run (crc_reset o1 v) l') as [o2| | |] eqn:Er'; [|discriminate E'|discriminate E'|discriminate E'].
  cbn [bind] in E'. exists o, o1, o2, y. split; [reflexivity|]. split; [exact Er|]. split; [reflexivity|]. split; [exact Er'|].
  split; [congruence|]. unfold crc_of. rewrite En'. cbn [bind]. rewrite Er'. exact E'.
Qed.
Print Assumptions C05_reset.

(** C06: linear ... *)
Theorem C06_crc_linear : forall w poly s1 s2 m1 m2,
  8 <= w -> poly < 2 ^ w -> s1 < 2 ^ w -> s2 < 2 ^ w -> length m1 = length m2 ->
  exists v1 v2, crc_of w poly s1 (map InBit m1) = Ok v1 /\ crc_of w poly s2 (map InBit m2) = Ok v2 /\
    crc_of w poly (N.lxor s1 s2) (map InBit (xor_bits m1 m2)) = Ok (N.lxor v1 v2).
Proof. exact crc_linear. Qed.
Print Assumptions C06_crc_linear.

(** ... it is the remainder of message * x^w by x^w + poly (bit 0 of [poly] is the coefficient of
    x^(w-1)) for start value 0 ... *)
Theorem C06_crc_remainder : forall w poly bits,
  8 <= w -> poly < 2 ^ w ->
  exists v, crc_of w poly 0 (map InBit bits) = Ok v /\
    low_bits v (N.to_nat w) =
    poly_rem (low_bits poly (N.to_nat w)) (repeat false (N.to_nat w)) (bits ++ repeat false (N.to_nat w)).
Proof. exact crc_remainder. Qed.
Print Assumptions C06_crc_remainder.

(** ... feeding the register value leaves zero (bit by bit, or as one word of the register type) ... *)
Theorem C06_crc_residue : forall w poly start l,
  8 <= w -> poly < 2 ^ w -> start < 2 ^ w -> Forall in_ok l ->
  exists v, crc_of w poly start l = Ok v /\
            crc_of w poly start (l ++ map InBit (low_bits v (N.to_nat w))) = Ok 0.
Proof. exact crc_residue. Qed.
Print Assumptions C06_crc_residue.

Theorem C06_crc_residue_word : forall w poly start l,
  In w [8; 16; 32; 64] -> poly < 2 ^ w -> start < 2 ^ w -> Forall in_ok l ->
  exists v, crc_of w poly start l = Ok v /\ crc_of w poly start (l ++ [word_in w v]) = Ok 0.
Proof. exact crc_residue_word. Qed.
Print Assumptions C06_crc_residue_word.

(** ... and messages differing only inside a window of at most w bits have different CRCs. *)
Theorem C06_crc_burst : forall w poly start pre x1 x2 suf,
  8 <= w -> poly < 2 ^ w -> N.testbit poly (w - 1) = true -> start < 2 ^ w ->
  length x1 = length x2 -> N.of_nat (length x1) <= w -> x1 <> x2 ->
  crc_of w poly start (map InBit (pre ++ x1 ++ suf)) <> crc_of w poly start (map InBit (pre ++ x2 ++ suf)).
Proof. exact crc_burst. Qed.
Print Assumptions C06_crc_burst.

Example C06_nonvacuous :
  0xA8F4 < 2 ^ 16 /\ N.testbit 0xA8F4 (16 - 1) = true /\
  crc_of 16 0xA8F4 0 (map InBit [true; false; true]) = Ok 33481 /\
  crc_of 16 0xA8F4 0 (map InBit [true; true; true]) = Ok 54963.
Proof. vm_compute. auto. Qed.
