(** Specification vocabulary for polar codes.  Definitions only; nothing of the model is used. *)
From Coq Require Import List ZArith NArith Arith Bool.
Import ListNotations.
Local Open Scope nat_scope.

(** position [i] is frozen: bit [i mod 32] of word [i / 32] *)
Definition is_frozen (frozen : list N) (i : nat) : bool := N.testbit (nth (i / 32) frozen 0%N) (N.of_nat (i mod 32)).
(** the frozen flags of the first [len] positions *)
Definition flags (frozen : list N) (len : nat) : list bool := map (is_frozen frozen) (seq 0 len).
(** the number of unfrozen positions *)
Definition unfrozen (fl : list bool) : nat := length (filter negb fl).
(** the message put at the unfrozen positions, +1 at the frozen ones *)
Fixpoint expand (fl : list bool) (message : list Z) : list Z :=
  match fl with
  | [] => []
  | true :: fl => 1%Z :: expand fl message
  | false :: fl => hd 1%Z message :: expand fl (tl message)
  end.

(** the symbols of a word at the unfrozen positions *)
Fixpoint collect (fl : list bool) (word : list Z) : list Z :=
  match fl, word with
  | true :: fl, _ :: word => collect fl word
  | false :: fl, x :: word => x :: collect fl word
  | _, _ => []
  end.

(** the product of a list *)
Definition product (l : list Z) : Z := fold_right Z.mul 1%Z l.
(** the polar transform of a word of length [2^n]: symbol [j] is the product of the symbols [i] whose binary
    representation has a one wherever that of [j] has (row [i], column [j] of the Kronecker power of [1 0; 1 1]) *)
Definition transform (n : nat) (u : list Z) : list Z :=
  map (fun j => product (map (fun i => nth i u 1%Z) (filter (fun i => Nat.land i j =? j) (seq 0 (2 ^ n))))) (seq 0 (2 ^ n)).

(** hard values *)
Definition pm1 (x : Z) : Prop := x = 1%Z \/ x = (-1)%Z.
(** soft values *)
Definition int8 (x : Z) : Prop := (-128 <= x <= 127)%Z.
(** the arrangement of unfrozen positions is closed upwards in the domination order *)
Definition domination_closed (fl : list bool) : Prop :=
  forall i j, i < length fl -> j < length fl -> Nat.land i j = i -> nth i fl true = false -> nth j fl true = false.

(** Successive cancellation decoding, plainly: each bit is decided from the values the preceding decisions leave.
    [sgn], [min] and clamping to -127 .. 127 are those of 8 bit soft values.  Gives the message and the word. *)
Definition clamp (x : Z) : Z := Z.max (-127) (Z.min 127 x).
Definition combine_left (a b : Z) : Z := (Z.sgn a * Z.sgn b * Z.min (Z.min 127 (Z.abs a)) (Z.min 127 (Z.abs b)))%Z.
Definition combine_right (h a b : Z) : Z := clamp (h * a + b)%Z.
Fixpoint zip2 {A} (f : A -> A -> A) (a b : list A) : list A :=
  match a, b with x :: a, y :: b => f x y :: zip2 f a b | _, _ => [] end.
Fixpoint zip3 {A} (f : A -> A -> A -> A) (a b c : list A) : list A :=
  match a, b, c with x :: a, y :: b, z :: c => f x y z :: zip3 f a b c | _, _, _ => [] end.
Fixpoint successive_cancellation (n : nat) (fl : list bool) (soft : list Z) : list Z * list Z :=
  match n with
  | O =>
      let x := Z.sgn (hd 0%Z soft) in
      if hd true fl then ([], [1%Z]) else ([x], [x])
  | S m =>
      let h := 2 ^ m in
      let a := firstn h soft in
      let b := skipn h soft in
      let '(m1, x1) := successive_cancellation m (firstn h fl) (zip2 combine_left a b) in
      let '(m2, x2) := successive_cancellation m (skipn h fl) (zip3 combine_right x1 a b) in
      (m1 ++ m2, zip2 Z.mul x1 x2 ++ x2)
  end.
(** the same symbols up to and including the first zero (a tie: no decision was possible) *)
Fixpoint same_until_tie (a b : list Z) : Prop :=
  match a, b with
  | [], [] => True
  | x :: a, y :: b => x = y /\ (x = 0%Z \/ same_until_tie a b)
  | _, _ => False
  end.
