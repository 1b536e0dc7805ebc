(** Independent specification for bit buffers: a plain list of bits and a cursor. *)
From Coq Require Import List ZArith NArith Bool.
From Verif Require Import Model_bits.  (* only for the call/answer alphabets bs_op, bs_out *)
Import ListNotations.

(** Bit [i] of a byte array: bit [i mod 8] (least significant first) of byte [i / 8]. *)
Definition bit_of (buf : list N) (i : nat) : bool :=
  N.testbit (nth (i / 8) buf 0%N) (N.of_nat (i mod 8)).
(** Big-endian numbering: bit 0 is the most significant bit of byte 0. *)
Definition be_bit_of (buf : list N) (i : nat) : bool :=
  N.testbit (nth (i / 8) buf 0%N) (N.of_nat (7 - i mod 8)).
(** A byte array is well formed when every element is a byte. *)
Definition bytes (buf : list N) : Prop := Forall (fun b => (b < 256)%N) buf.

(** All bits of a byte array, in stream order. *)
Definition all_bits (buf : list N) : list bool := map (bit_of buf) (seq 0 (8 * length buf)).

(** The [n] low bits of a number, least significant first, and back. *)
Definition low_bits (v : N) (n : nat) : list bool := map (fun i => N.testbit v (N.of_nat i)) (seq 0 n).
Fixpoint bits_value (l : list bool) : N :=
  match l with [] => 0%N | b :: t => (N.b2n b + 2 * bits_value t)%N end.
(** Group a list of bits into byte values. *)
Fixpoint bits_bytes (n : nat) (l : list bool) : list N :=
  match n with
  | O => []
  | S n' => bits_value (firstn 8 l) :: bits_bytes n' (skipn 8 l)
  end.

(** Abstract stream: bits and a cursor. *)
Record astream := { as_bits : list bool; as_pos : Z }.

Definition in_range (a : astream) (n : nat) : bool :=
  ((0 <=? as_pos a) && (as_pos a + Z.of_nat n <=? Z.of_nat (length (as_bits a))))%Z.

(** Overwrite the next bits / look at the next bits. *)
Definition put_bits (a : astream) (l : list bool) : option astream :=
  if in_range a (length l) then
    let p := Z.to_nat (as_pos a) in
    Some {| as_bits := firstn p (as_bits a) ++ l ++ skipn (p + length l) (as_bits a);
            as_pos := as_pos a + Z.of_nat (length l) |}
  else None.
Definition get_bits (a : astream) (n : nat) : option (astream * list bool) :=
  if in_range a n then
    let p := Z.to_nat (as_pos a) in
    Some ({| as_bits := as_bits a; as_pos := as_pos a + Z.of_nat n |},
          firstn n (skipn p (as_bits a)))
  else None.

(** What each call should do; [None] = outside the buffer (or a malformed argument). *)
Definition spec_step (a : astream) (o : bs_op) : option (astream * bs_out) :=
  match o with
  | OpSeek p => Some ({| as_bits := as_bits a; as_pos := p |}, OutUnit)
  | OpTell => Some (a, OutInt (as_pos a))
  | OpReset => Some ({| as_bits := repeat false (length (as_bits a)); as_pos := 0 |}, OutUnit)
  | OpPutbit b => option_map (fun a' => (a', OutUnit)) (put_bits a [b])
  | OpGetbit =>
      option_map (fun '(a', l) => (a', OutBit (hd false l))) (get_bits a 1)
  | OpPutbyte b =>
      if (b <? 256)%N then option_map (fun a' => (a', OutUnit)) (put_bits a (low_bits b 8)) else None
  | OpGetbyte =>
      option_map (fun '(a', l) => (a', OutByte (bits_value l))) (get_bits a 8)
  | OpWritebytes src =>
      if forallb (fun b => (b <? 256)%N) src
      then option_map (fun a' => (a', OutUnit)) (put_bits a (flat_map (fun b => low_bits b 8) src))
      else None
  | OpReadbytes dst =>
      option_map (fun '(a', l) => (a', OutBytes (bits_bytes (length dst) l)))
                 (get_bits a (8 * length dst))
  | OpWritebits w v num =>
      if ((0 <=? num) && (num <=? Z.of_N w))%Z
      then option_map (fun a' => (a', OutUnit)) (put_bits a (low_bits v (Z.to_nat num)))
      else None
  | OpReadbits w num =>
      if ((0 <=? num) && (num <=? Z.of_N w))%Z
      then option_map (fun '(a', l) => (a', OutVal (bits_value l))) (get_bits a (Z.to_nat num))
      else None
  end.

Fixpoint spec_run (a : astream) (ops : list bs_op) : option (astream * list bs_out) :=
  match ops with
  | [] => Some (a, [])
  | o :: ops' =>
      match spec_step a o with
      | None => None
      | Some (a1, out) =>
          match spec_run a1 ops' with
          | None => None
          | Some (a2, outs) => Some (a2, out :: outs)
          end
      end
  end.
