(** Properties C01-C04: bit accessors (bitman.hh) and Bitstream (bitstream.hh).
    Positions are non-negative [int]s; [get_*]/[set_*]/[xor_*] are the modelled functions,
    [Ok] means: no out-of-bounds access and no undefined shift. *)
From Coq Require Import ZifyBool ZifyNat.
From Verif Require Import Cpp Model_bits Spec_bits Lib_list Proof_bits.

(** C01 *)
Theorem C01_set_be_bit : forall buf pos val,
  bytes buf -> pos < 8 * length buf ->
  exists buf', set_be_bit buf (Z.of_nat pos) val = Ok buf' /\ length buf' = length buf /\ bytes buf' /\
    get_be_bit buf' (Z.of_nat pos) = Ok val /\
    (forall q, q < 8 * length buf -> q <> pos ->
       get_be_bit buf' (Z.of_nat q) = get_be_bit buf (Z.of_nat q)) /\
    (forall k, k <> pos / 8 -> nth_error buf' k = nth_error buf k).
Proof. exact set_be_full. Qed.
Print Assumptions C01_set_be_bit.

Theorem C01_set_le_bit : forall buf pos val,
  bytes buf -> pos < 8 * length buf ->
  exists buf', set_le_bit buf (Z.of_nat pos) val = Ok buf' /\ length buf' = length buf /\ bytes buf' /\
    get_le_bit buf' (Z.of_nat pos) = Ok val /\
    (forall q, q < 8 * length buf -> q <> pos ->
       get_le_bit buf' (Z.of_nat q) = get_le_bit buf (Z.of_nat q)) /\
    (forall k, k <> pos / 8 -> nth_error buf' k = nth_error buf k).
Proof. exact set_le_full. Qed.
Print Assumptions C01_set_le_bit.

(** The value read is the plain bit of the byte: big-endian bit [pos] is bit [7 - pos mod 8] of
    byte [pos / 8]; little-endian bit [pos] is bit [pos mod 8]. *)
Theorem C01_get_be_bit : forall buf pos, pos < 8 * length buf ->
  get_be_bit buf (Z.of_nat pos) = Ok (N.testbit (nth (pos / 8) buf 0%N) (N.of_nat (7 - pos mod 8))).
Proof. exact get_be_bit_ok. Qed.
Print Assumptions C01_get_be_bit.

Theorem C01_get_le_bit : forall buf pos, pos < 8 * length buf ->
  get_le_bit buf (Z.of_nat pos) = Ok (N.testbit (nth (pos / 8) buf 0%N) (N.of_nat (pos mod 8))).
Proof. exact get_le_bit_ok. Qed.
Print Assumptions C01_get_le_bit.

Theorem C01_mirror : forall buf k j val,
  k < length buf -> j < 8 ->
  get_le_bit buf (Z.of_nat (8 * k + j)) = get_be_bit buf (Z.of_nat (8 * k + (7 - j))) /\
  set_le_bit buf (Z.of_nat (8 * k + j)) val = set_be_bit buf (Z.of_nat (8 * k + (7 - j))) val /\
  xor_le_bit buf (Z.of_nat (8 * k + j)) val = xor_be_bit buf (Z.of_nat (8 * k + (7 - j))) val.
Proof. exact mirror_full. Qed.
Print Assumptions C01_mirror.

Theorem C01_out_of_range : forall buf pos val,
  8 * length buf <= pos ->
  get_be_bit buf (Z.of_nat pos) = Undef /\ get_le_bit buf (Z.of_nat pos) = Undef /\
  set_be_bit buf (Z.of_nat pos) val = Undef /\ set_le_bit buf (Z.of_nat pos) val = Undef /\
  xor_be_bit buf (Z.of_nat pos) val = Undef /\ xor_le_bit buf (Z.of_nat pos) val = Undef.
Proof. exact out_of_range. Qed.
Print Assumptions C01_out_of_range.

Example C01_nonvacuous :
  bytes [0x5A; 0xFF; 3]%N /\ 11 < 8 * length [0x5A; 0xFF; 3]%N /\
  set_be_bit [0x5A; 0xFF; 3]%N 11 false = Ok [0x5A; 0xEF; 3]%N /\
  set_le_bit [0x5A; 0xFF; 3]%N 11 false = Ok [0x5A; 0xF7; 3]%N.
Proof. repeat split; repeat constructor. Qed.

(** C02 *)
Theorem C02_xor_be_bit : forall buf pos val,
  bytes buf -> pos < 8 * length buf ->
  exists buf' old, xor_be_bit buf (Z.of_nat pos) val = Ok buf' /\ length buf' = length buf /\
    get_be_bit buf (Z.of_nat pos) = Ok old /\
    get_be_bit buf' (Z.of_nat pos) = Ok (xorb old val) /\
    (forall q, q < 8 * length buf -> q <> pos ->
       get_be_bit buf' (Z.of_nat q) = get_be_bit buf (Z.of_nat q)) /\
    (forall k, k <> pos / 8 -> nth_error buf' k = nth_error buf k) /\
    xor_be_bit buf' (Z.of_nat pos) val = Ok buf.
Proof. exact xor_be_full. Qed.
Print Assumptions C02_xor_be_bit.

Theorem C02_xor_le_bit : forall buf pos val,
  bytes buf -> pos < 8 * length buf ->
  exists buf' old, xor_le_bit buf (Z.of_nat pos) val = Ok buf' /\ length buf' = length buf /\
    get_le_bit buf (Z.of_nat pos) = Ok old /\
    get_le_bit buf' (Z.of_nat pos) = Ok (xorb old val) /\
    (forall q, q < 8 * length buf -> q <> pos ->
       get_le_bit buf' (Z.of_nat q) = get_le_bit buf (Z.of_nat q)) /\
    (forall k, k <> pos / 8 -> nth_error buf' k = nth_error buf k) /\
    xor_le_bit buf' (Z.of_nat pos) val = Ok buf.
Proof. exact xor_le_full. Qed.
Print Assumptions C02_xor_le_bit.

Example C02_nonvacuous :
  bytes [0x5A; 0xFF; 3]%N /\ 4 < 8 * length [0x5A; 0xFF; 3]%N /\
  xor_be_bit [0x5A; 0xFF; 3]%N 4 true = Ok [0x52; 0xFF; 3]%N.
Proof. repeat split; repeat constructor. Qed.

(** C03: whatever history of public calls the abstract bit array with a cursor ([spec_run],
    Spec_bits.v) accepts, the stream gives the same answers, and its bytes hold the abstract bits. *)
Theorem C03_bitstream_history : forall ops buf pos a' outs,
  bytes buf ->
  spec_run {| as_bits := all_bits buf; as_pos := pos |} ops = Some (a', outs) ->
  exists buf' pos', bs_run {| bs_buf := buf; bs_pos := pos |} ops = Ok ({| bs_buf := buf'; bs_pos := pos' |}, outs)
    /\ all_bits buf' = as_bits a' /\ pos' = as_pos a' /\ length buf' = length buf /\ bytes buf'.
Proof. exact history_full. Qed.
Print Assumptions C03_bitstream_history.

Example C03_nonvacuous :
  spec_run {| as_bits := all_bits [0; 255]%N; as_pos := 3 |}
    [OpPutbit true; OpPutbyte 0x4D; OpTell; OpSeek 5; OpReadbits 16 9; OpWritebits 8 5 2; OpTell; OpReset; OpGetbit]
  = Some ({| as_bits := repeat false 16; as_pos := 1 |},
     [OutUnit; OutUnit; OutInt 12; OutUnit; OutVal 0x1A6; OutUnit; OutInt 16; OutUnit; OutBit false]).
Proof. vm_compute. reflexivity. Qed.

(** C04: the multi-bit calls are in the alphabet of C03; what each transfers is fixed by
    [spec_step].  Write, seek back, read: *)
Theorem C04_writebits_readbits : forall w buf p v n,
  bytes buf -> p + n <= 8 * length buf -> n <= N.to_nat w ->
  exists s', bs_run {| bs_buf := buf; bs_pos := Z.of_nat p |}
               [OpWritebits w v (Z.of_nat n); OpTell; OpSeek (Z.of_nat p); OpReadbits w (Z.of_nat n); OpTell]
    = Ok (s', [OutUnit; OutInt (Z.of_nat (p + n)); OutUnit; OutVal (v mod 2 ^ N.of_nat n)%N;
               OutInt (Z.of_nat (p + n))]).
Proof. exact write_back_bits. Qed.
Print Assumptions C04_writebits_readbits.

Theorem C04_writebytes_readbytes : forall buf p src dst,
  bytes buf -> bytes src -> p + 8 * length src <= 8 * length buf -> length dst = length src ->
  exists s', bs_run {| bs_buf := buf; bs_pos := Z.of_nat p |}
               [OpWritebytes src; OpTell; OpSeek (Z.of_nat p); OpReadbytes dst; OpTell]
    = Ok (s', [OutUnit; OutInt (Z.of_nat (p + 8 * length src)); OutUnit; OutBytes src;
               OutInt (Z.of_nat (p + 8 * length src))]).
Proof. exact write_back_bytes. Qed.
Print Assumptions C04_writebytes_readbytes.

Theorem C04_putbyte_getbyte : forall buf p b,
  bytes buf -> (b < 256)%N -> p + 8 <= 8 * length buf ->
  exists s', bs_run {| bs_buf := buf; bs_pos := Z.of_nat p |}
               [OpPutbyte b; OpTell; OpSeek (Z.of_nat p); OpGetbyte; OpTell]
    = Ok (s', [OutUnit; OutInt (Z.of_nat (p + 8)); OutUnit; OutByte b; OutInt (Z.of_nat (p + 8))]).
Proof. exact write_back_byte. Qed.
Print Assumptions C04_putbyte_getbyte.

(** Every single multi-bit call against the specification, with the buffer bits afterwards. *)
Theorem C04_one_call : forall o buf pos a' out,
  bytes buf ->
  spec_step {| as_bits := all_bits buf; as_pos := pos |} o = Some (a', out) ->
  exists buf' pos', bs_step {| bs_buf := buf; bs_pos := pos |} o = Ok ({| bs_buf := buf'; bs_pos := pos' |}, out)
    /\ all_bits buf' = as_bits a' /\ pos' = as_pos a' /\ length buf' = length buf /\ bytes buf'.
Proof. exact step_full. Qed.
Print Assumptions C04_one_call.

Example C04_nonvacuous :
  bytes [1; 2; 3; 4; 5]%N /\ bytes [0xAB; 0xCD]%N /\ 11 + 8 * 2 <= 8 * 5 /\ 3 + 17 <= 8 * 5 /\ 17 <= N.to_nat 32.
Proof. repeat split; repeat constructor. Qed.

(** C03: a Bitstream<SIZE> has room for SIZE bits, with less than a byte to spare, and data() shows the bits *)
Theorem C03_room_and_data : forall size buf pos p b, 0 < size -> length buf = bs_bytes size -> bytes buf -> p < size ->
  8 * length buf < size + 8 /\
  exists s', bs_run {| bs_buf := buf; bs_pos := pos |} [OpSeek (Z.of_nat p); OpPutbit b] = Ok (s', [OutUnit; OutUnit]) /\
    bytes (bs_data s') /\ length (bs_data s') = length buf /\ bs_tell s' = Z.of_nat (S p) /\
    forall q, q < 8 * length buf -> bit_of (bs_data s') q = if q =? p then b else bit_of buf q.
Proof.
  intros size buf pos p b Hs Hl Hb Hp. unfold bs_bytes in Hl.
  pose proof (Nat.div_mod (size + 7) 8 ltac:(lia)) as Hd. pose proof (Nat.mod_upper_bound (size + 7) 8 ltac:(lia)) as Hm.
  rewrite <- Hl in Hd. assert (p < 8 * length buf) as Hp' by lia. split; [lia|].
  assert (length (all_bits buf) = 8 * length buf) as La by (unfold all_bits; rewrite map_length, seq_length; reflexivity).
  set (l' := firstn p (all_bits buf) ++ [b] ++ skipn (p + 1) (all_bits buf)).
  assert (spec_run {| as_bits := all_bits buf; as_pos := pos |} [OpSeek (Z.of_nat p); OpPutbit b] =
    Some ({| as_bits := l'; as_pos := Z.of_nat p + 1 |}, [OutUnit; OutUnit])) as E.
  { cbn [spec_run spec_step as_bits as_pos]. unfold put_bits, in_range. cbn [as_bits as_pos length]. rewrite La.
    replace ((0 <=? Z.of_nat p) && (Z.of_nat p + Z.of_nat 1 <=? Z.of_nat (8 * length buf)))%Z with true by lia.
    cbn [option_map]. rewrite Nat2Z.id. reflexivity. }
  destruct (C03_bitstream_history _ buf pos _ _ Hb E) as (buf' & pos' & E' & Ha & Hp2 & L' & Hb').
  eexists. split; [exact E'|]. unfold bs_data, bs_tell. cbn [bs_buf bs_pos as_pos as_bits] in *. split; [exact Hb'|]. split; [exact L'|]. split; [lia|].
  intros q Hq.
  assert (bit_of buf' q = nth q (all_bits buf') false) as ->.
  { unfold all_bits. rewrite (nth_indep _ false (bit_of buf' 0)) by (rewrite map_length, seq_length; lia).
    rewrite (map_nth (bit_of buf')), seq_nth by lia. reflexivity. }
  assert (bit_of buf q = nth q (all_bits buf) false) as ->.
  { unfold all_bits. rewrite (nth_indep _ false (bit_of buf 0)) by (rewrite map_length, seq_length; lia).
    rewrite (map_nth (bit_of buf)), seq_nth by lia. reflexivity. }
  rewrite Ha. unfold l'. assert (length (firstn p (all_bits buf)) = p) as Lf by (rewrite firstn_length; lia).
  destruct (Nat.eqb_spec q p) as [->|Hne].
  - rewrite app_nth2 by lia. rewrite Lf, Nat.sub_diag. reflexivity.
  - destruct (Nat.lt_ge_cases q p) as [Hlt|Hge].
    + rewrite app_nth1 by lia. rewrite nth_firstn'. replace (q <? p) with true by lia. reflexivity.
    + rewrite app_nth2 by lia. rewrite Lf. replace (q - p) with (S (q - p - 1)) by lia. cbn [app nth].
      rewrite nth_skipn'. f_equal. lia.
Qed.
Print Assumptions C03_room_and_data.
Example C03_room_nonvacuous : bs_bytes 13 = 2 /\ bytes [0; 255]%N /\ 12 < 13.
Proof. repeat split; repeat constructor. Qed.
