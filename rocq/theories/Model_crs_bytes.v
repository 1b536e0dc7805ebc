(** Model of the remaining overloads of encode and decode in cauchy_reed_solomon_erasure_coding.hh: arrays of value_type and
    untyped memory.  Definitions only.  Memory is a list of bytes; an array that starts at the beginning of an object is suitably
    aligned, so a pointer at byte offset [off] is aligned iff [off] is a multiple of sizeof(value_type). *)
From Verif Require Import Cpp Model_gf Model_perm Model_crs.
Local Open Scope N_scope.

(** the byte order of the machine *)
Inductive order := Little | Big.

(** the value of an object of the given bytes, and the bytes of an object of [S] bytes *)
Fixpoint le_value (l : list N) : N := match l with [] => 0 | b :: l' => b + 256 * le_value l' end.
Fixpoint le_bytes (S : nat) (v : N) : list N := match S with O => [] | S S' => v mod 256 :: le_bytes S' (v / 256) end.
Definition obj_value (e : order) (l : list N) : N := le_value (match e with Little => l | Big => rev l end).
Definition obj_bytes (e : order) (S : nat) (v : N) : list N := match e with Little => le_bytes S v | Big => rev (le_bytes S v) end.

(** reinterpret_cast<const value_type *>(p): the objects memory holds; and memory after they are changed to [vals] *)
Definition objects (e : order) (S : nat) (mem : list N) : list N :=
  map (fun i => obj_value e (firstn S (skipn (S * i) mem))) (seq 0 (length mem / S)).
Definition memory (e : order) (S : nat) (vals mem : list N) : list N :=
  concat (map (obj_bytes e S) vals) ++ skipn (S * length vals) mem.

(** sizeof(value_type) *)
Definition gf_bytes (G : gf) : nat := N.to_nat (gf_w G / 8).

(** cauchy_reed_solomon_erasure_coding.hh:315-318, 323-327 encode(const void *, void *, int, int, int): the block starts at byte [boff] of [block].
    The conversion of value_type arrays to ValueType arrays (a struct of one value_type) changes nothing. *)
Definition crs_encode_bytes (e : order) (G : gf) (B : option backend) (al : nat -> bool) (data block : list N) (boff id block_bytes cnt : nat) : res (list N) :=
  let S := gf_bytes G in
  assert_ (block_bytes mod S =? 0)%nat ;;;
  require (boff mod S =? 0)%nat ;;;
  block' <- crs_encode G B al (objects e S data) (objects e S block) (boff / S) id (block_bytes / S) cnt ;;
  Ok (memory e S block' block).

(** cauchy_reed_solomon_erasure_coding.hh:319-322, 328-332 decode(void *, const void *, const value_type *, int, int, int): the block is written
    to byte [doff] of [data] *)
Definition crs_decode_bytes (e : order) (G : gf) (B : option backend) (al : nat -> bool) (data : list N) (doff : nat) (blocks ids : list N) (idx block_bytes cnt : nat) (st : crs_state)
    : res (list N * crs_state) :=
  let S := gf_bytes G in
  assert_ (block_bytes mod S =? 0)%nat ;;;
  require (doff mod S =? 0)%nat ;;;
  '(data', st) <- crs_decode G B al (objects e S data) (doff / S) (objects e S blocks) ids idx (block_bytes / S) cnt st ;;
  Ok (memory e S data' data, st).

(** the loops of a caller (tests/crs_regression_test.cc) *)
Definition crs_encode_all_bytes (e : order) (G : gf) (B : option backend) (al : nat -> nat -> bool) (data blocks ids : list N) (block_bytes cnt : nat) : res (list N) :=
  for_up 0 cnt (fun i blocks =>
    id <- rd ids i ;;
    crs_encode_bytes e G B (al i) data blocks (block_bytes * i) (N.to_nat id) block_bytes cnt) blocks.
Definition crs_decode_all_bytes (e : order) (G : gf) (B : option backend) (al : nat -> nat -> bool) (data blocks ids : list N) (block_bytes cnt : nat) (st : crs_state) : res (list N) :=
  '(data, _) <- for_up 0 cnt (fun i '(data, st) =>
     crs_decode_bytes e G B (al i) data (block_bytes * i) blocks ids i block_bytes cnt st) (data, st) ;;
  Ok data.
