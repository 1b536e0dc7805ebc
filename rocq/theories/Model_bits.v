(** Model of bitman.hh and bitstream.hh.  Definitions only. *)
From Verif Require Import Cpp.
Local Open Scope N_scope.

(** * bitman.hh
    Positions are [int]: C division and remainder truncate ([Z.quot], [Z.rem]).
    [~m & x] on bytes is [N.ldiff x m].  Results are stored into [uint8_t]. *)

(** bitman.hh:11-14 xor_be_bit.  For pos in -7..-1 the shift is 8..14 (defined for int). *)
Definition xor_be_bit (buf : list N) (pos : Z) (val : bool) : res (list N) :=
  let i := Z.quot pos 8 in
  let s := Z.to_N (7 - Z.rem pos 8) in
  b <- rdZ buf i ;;
  wrZ buf i (wrap 8 (N.lxor b (N.shiftl (N.b2n val) s))).

(** bitman.hh:16-19 xor_le_bit; a negative remainder is a negative shift count: undefined *)
Definition xor_le_bit (buf : list N) (pos : Z) (val : bool) : res (list N) :=
  let i := Z.quot pos 8 in
  require (0 <=? Z.rem pos 8)%Z ;;;
  let s := Z.to_N (Z.rem pos 8) in
  b <- rdZ buf i ;;
  wrZ buf i (wrap 8 (N.lxor b (N.shiftl (N.b2n val) s))).

(** bitman.hh:21-24 set_be_bit *)
Definition set_be_bit (buf : list N) (pos : Z) (val : bool) : res (list N) :=
  let i := Z.quot pos 8 in
  let s := Z.to_N (7 - Z.rem pos 8) in
  b <- rdZ buf i ;;
  wrZ buf i (wrap 8 (N.lor (N.ldiff b (N.shiftl 1 s)) (N.shiftl (N.b2n val) s))).

(** bitman.hh:26-29 set_le_bit *)
Definition set_le_bit (buf : list N) (pos : Z) (val : bool) : res (list N) :=
  let i := Z.quot pos 8 in
  require (0 <=? Z.rem pos 8)%Z ;;;
  let s := Z.to_N (Z.rem pos 8) in
  b <- rdZ buf i ;;
  wrZ buf i (wrap 8 (N.lor (N.ldiff b (N.shiftl 1 s)) (N.shiftl (N.b2n val) s))).

(** bitman.hh:31-34 get_be_bit *)
Definition get_be_bit (buf : list N) (pos : Z) : res bool :=
  b <- rdZ buf (Z.quot pos 8) ;;
  Ok (N.odd (N.shiftr b (Z.to_N (7 - Z.rem pos 8)))).

(** bitman.hh:36-39 get_le_bit *)
Definition get_le_bit (buf : list N) (pos : Z) : res bool :=
  require (0 <=? Z.rem pos 8)%Z ;;;
  b <- rdZ buf (Z.quot pos 8) ;;
  Ok (N.odd (N.shiftr b (Z.to_N (Z.rem pos 8)))).

(** * bitstream.hh
    bitstream.hh:11-19: the object is the byte buffer [buf_] (BYTES = (SIZE+7)/8 bytes) and the
    cursor [pos_].  [BYTES] is the length of the list. *)
Record bitstream := { bs_buf : list N; bs_pos : Z }.

(** bitstream.hh:16 *)
Definition bs_bytes (size : nat) : nat := ((size + 7) / 8)%nat.

(** bitstream.hh:20-24 *)
Definition bs_seek (s : bitstream) (p : Z) : bitstream := {| bs_buf := bs_buf s; bs_pos := p |}.
(** bitstream.hh:25-28 *)
Definition bs_tell (s : bitstream) : Z := bs_pos s.
(** bitstream.hh:29-32 *)
Definition bs_data (s : bitstream) : list N := bs_buf s.
(** bitstream.hh:33-38 *)
Definition bs_reset (s : bitstream) : res bitstream :=
  b <- for_up 0 (length (bs_buf s)) (fun i b => wr b i 0) (bs_buf s) ;;
  Ok {| bs_buf := b; bs_pos := 0 |}.

(** Shared prologue: [int bit = pos_ % 8; int byte = pos_ / 8;].  A negative [bit] is later used
    as a shift count and a negative [byte] as an index; both are undefined, so a negative
    cursor is [Undef] here. (Simplification: readbytes with len = 0 on a negative cursor would
    be harmless in the code.) *)
Definition bs_split (p : Z) : res (N * nat) :=
  require (0 <=? p)%Z ;;;
  Ok (Z.to_N (Z.rem p 8), Z.to_nat (Z.quot p 8)).

(** bitstream.hh:39-47 putbit *)
Definition bs_putbit (s : bitstream) (b : bool) : res bitstream :=
  '(bit, byte) <- bs_split (bs_pos s) ;;
  let mask := wrap 8 (N.shiftl 1 bit) in
  x <- rd (bs_buf s) byte ;;
  let tmp := wrap 8 (N.ldiff x mask) in
  buf <- wr (bs_buf s) byte (wrap 8 (N.lor tmp (N.shiftl (N.b2n b) bit))) ;;
  Ok {| bs_buf := buf; bs_pos := bs_pos s + 1 |}.

(** bitstream.hh:48-54 getbit *)
Definition bs_getbit (s : bitstream) : res (bitstream * bool) :=
  '(bit, byte) <- bs_split (bs_pos s) ;;
  x <- rd (bs_buf s) byte ;;
  Ok ({| bs_buf := bs_buf s; bs_pos := bs_pos s + 1 |}, N.odd (N.shiftr x bit)).

(** The unaligned byte store shared by putbyte (bitstream.hh:60-65) and writebytes
    (bitstream.hh:89-94): low part into buf[byte], high part into buf[byte+1]. *)
Definition bs_store_unaligned (buf : list N) (byte : nat) (bit : N) (b : N) : res (list N) :=
  let mask := wrap 8 (N.shiftl 1 bit - 1) in
  x <- rd buf byte ;;
  let lsb := N.land mask x in
  buf <- wr buf byte (wrap 8 (N.lor lsb (N.shiftl b bit))) ;;
  y <- rd buf (S byte) ;;
  let msb := wrap 8 (N.ldiff y mask) in
  wr buf (S byte) (wrap 8 (N.lor msb (N.shiftr b (8 - bit)))).

(** bitstream.hh:55-69 putbyte *)
Definition bs_putbyte (s : bitstream) (b : N) : res bitstream :=
  '(bit, byte) <- bs_split (bs_pos s) ;;
  buf <- (if bit =? 0 then wr (bs_buf s) byte b
          else bs_store_unaligned (bs_buf s) byte bit b) ;;
  Ok {| bs_buf := buf; bs_pos := bs_pos s + 8 |}.

(** The unaligned byte load shared by getbyte (bitstream.hh:76-78) and readbytes
    (bitstream.hh:107-109). *)
Definition bs_load_unaligned (buf : list N) (byte : nat) (bit : N) : res N :=
  x <- rd buf byte ;;
  let lsb := wrap 8 (N.shiftr x bit) in
  y <- rd buf (S byte) ;;
  let msb := wrap 8 (N.shiftl y (8 - bit)) in
  Ok (N.lor msb lsb).

(** bitstream.hh:70-81 getbyte *)
Definition bs_getbyte (s : bitstream) : res (bitstream * N) :=
  '(bit, byte) <- bs_split (bs_pos s) ;;
  v <- (if bit =? 0 then rd (bs_buf s) byte else bs_load_unaligned (bs_buf s) byte bit) ;;
  Ok ({| bs_buf := bs_buf s; bs_pos := bs_pos s + 8 |}, v).

(** bitstream.hh:82-98 writebytes; [len] is the length of [src] *)
Definition bs_writebytes (s : bitstream) (src : list N) : res bitstream :=
  '(bit, byte) <- bs_split (bs_pos s) ;;
  buf <- for_up 0 (length src)
           (fun i buf =>
              b <- rd src i ;;
              if bit =? 0 then wr buf (byte + i) b
              else bs_store_unaligned buf (byte + i) bit b)
           (bs_buf s) ;;
  Ok {| bs_buf := buf; bs_pos := bs_pos s + 8 * Z.of_nat (length src) |}.

(** bitstream.hh:99-114 readbytes; the destination is an array of [len] bytes *)
Definition bs_readbytes (s : bitstream) (dst : list N) : res (bitstream * list N) :=
  '(bit, byte) <- bs_split (bs_pos s) ;;
  d <- for_up 0 (length dst)
         (fun i d =>
            v <- (if bit =? 0 then rd (bs_buf s) (byte + i)
                  else bs_load_unaligned (bs_buf s) (byte + i) bit) ;;
            wr d i v)
         dst ;;
  Ok ({| bs_buf := bs_buf s; bs_pos := bs_pos s + 8 * Z.of_nat (length dst) |}, d).

(** Number of bits of the promoted operand of a shift of an unsigned [w] bit TYPE. *)
Definition promoted (w : N) : N := N.max 32 w.

(** bitstream.hh:115-130 writebits<TYPE>, TYPE unsigned with [w] bits.
    A negative [num] makes [copy] negative and [1 << copy] undefined.
    The loop state is (stream, num, sum). *)
Definition bs_writebits (w : N) (s : bitstream) (b : N) (num : Z) : res bitstream :=
  require (0 <=? num)%Z ;;;
  '(s', _, _) <-
    while_ (S (Z.to_nat num))
      (fun '(s, num, sum) => Ok (negb (num =? 0)))
      (fun '(s, num, sum) =>
         '(bit, byte) <- bs_split (bs_pos s) ;;
         let copy := N.min (8 - bit) num in
         let mask := wrap 8 (N.shiftl 1 copy - 1) in
         require (sum <? promoted w) ;;;
         let src := wrap 8 (N.shiftl (N.land mask (N.shiftr b sum)) bit) in
         x <- rd (bs_buf s) byte ;;
         let dst := wrap 8 (N.ldiff x (N.shiftl mask bit)) in
         buf <- wr (bs_buf s) byte (N.lor dst src) ;;
         Ok ({| bs_buf := buf; bs_pos := bs_pos s + Z.of_N copy |}, num - copy, sum + copy))
      (s, Z.to_N num, 0) ;;
  Ok s'.

(** bitstream.hh:131-148 readbits<TYPE>, TYPE unsigned with [w] bits.
    The loop state is (stream, num, sum, a). *)
Definition bs_readbits (w : N) (s : bitstream) (num : Z) : res (bitstream * N) :=
  require (0 <=? num)%Z ;;;
  '(s', _, _, a) <-
    while_ (S (Z.to_nat num))
      (fun '(s, num, sum, a) => Ok (negb (num =? 0)))
      (fun '(s, num, sum, a) =>
         '(bit, byte) <- bs_split (bs_pos s) ;;
         let copy := N.min (8 - bit) num in
         let mask := wrap 8 (N.shiftl 1 copy - 1) in
         x <- rd (bs_buf s) byte ;;
         let tmp := wrap w (N.land mask (N.shiftr x bit)) in
         require (sum <? promoted w) ;;;
         let a' := wrap w (N.lor a (N.shiftl tmp sum)) in
         Ok ({| bs_buf := bs_buf s; bs_pos := bs_pos s + Z.of_N copy |}, num - copy, sum + copy, a'))
      (s, Z.to_N num, 0, 0) ;;
  Ok (s', a).

(** Any public call on a stream, with what it returns. *)
Inductive bs_op :=
| OpSeek (p : Z) | OpTell | OpReset
| OpPutbit (b : bool) | OpGetbit
| OpPutbyte (b : N) | OpGetbyte
| OpWritebytes (l : list N) | OpReadbytes (dst : list N)
| OpWritebits (w : N) (v : N) (num : Z) | OpReadbits (w : N) (num : Z).

Inductive bs_out :=
| OutUnit | OutInt (z : Z) | OutBit (b : bool) | OutByte (n : N) | OutBytes (l : list N) | OutVal (n : N).

(** One public call (bitstream.hh:20-148). *)
Definition bs_step (s : bitstream) (o : bs_op) : res (bitstream * bs_out) :=
  match o with
  | OpSeek p => Ok (bs_seek s p, OutUnit)
  | OpTell => Ok (s, OutInt (bs_tell s))
  | OpReset => s' <- bs_reset s ;; Ok (s', OutUnit)
  | OpPutbit b => s' <- bs_putbit s b ;; Ok (s', OutUnit)
  | OpGetbit => '(s', b) <- bs_getbit s ;; Ok (s', OutBit b)
  | OpPutbyte b => s' <- bs_putbyte s b ;; Ok (s', OutUnit)
  | OpGetbyte => '(s', b) <- bs_getbyte s ;; Ok (s', OutByte b)
  | OpWritebytes l => s' <- bs_writebytes s l ;; Ok (s', OutUnit)
  | OpReadbytes d => '(s', l) <- bs_readbytes s d ;; Ok (s', OutBytes l)
  | OpWritebits w v num => s' <- bs_writebits w s v num ;; Ok (s', OutUnit)
  | OpReadbits w num => '(s', v) <- bs_readbits w s num ;; Ok (s', OutVal v)
  end.

(** A history of calls on one object, collecting what the caller sees. *)
Fixpoint bs_run (s : bitstream) (ops : list bs_op) : res (bitstream * list bs_out) :=
  match ops with
  | [] => Ok (s, [])
  | o :: ops' =>
      '(s1, out) <- bs_step s o ;;
      '(s2, outs) <- bs_run s1 ops' ;;
      Ok (s2, out :: outs)
  end.
