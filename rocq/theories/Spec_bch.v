(** Specification vocabulary for C36 and C37: binary cyclic codes.  A word is a list of bits (0 or 1), the first one being the
    coefficient of the highest power; polynomials over GF(2) are numbers as in Spec_gf. *)
From Coq Require Import NArith List.
From Verif Require Import Spec_bits Spec_gf.
Import ListNotations.
Local Open Scope N_scope.

(** the bits of a byte buffer, most significant bit of the first byte first *)
Definition be_bits (buf : list N) : list N := map (fun i => N.b2n (be_bit_of buf i)) (seq 0 (8 * length buf)).
(** the polynomial of a word *)
Definition word_poly (w : list N) : N := fold_left (fun v b => 2 * v + b) w 0.
(** the product of polynomials *)
Definition poly_product (ms : list N) : N := fold_left clmul ms 1.
(** divisibility *)
Definition poly_divides (g v : N) : Prop := exists q, v = clmul q g.
(** a list of bits *)
Definition is_word (w : list N) : Prop := Forall (fun b => b = 0 \/ b = 1) w.
