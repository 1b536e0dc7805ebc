(** Specification vocabulary for the polar list decoders and parity aided polar codes.  Nothing of the model is used. *)
From Coq Require Import List ZArith NArith Arith Bool.
From Verif Require Import Spec_polar.
Import ListNotations.
Local Open Scope nat_scope.

(** What a position of the code carries: nothing, a message symbol, or the parity of the message symbols since the
    preceding parity symbol *)
Inductive role := Frozen | Data | Parity.
(** every unfrozen position carries a message symbol *)
Definition plain_roles (fl : list bool) : list role := map (fun f : bool => if f then Frozen else Data) fl.
(** a parity symbol after the first [count] message symbols, then after every [stride] *)
Fixpoint parity_roles (stride : nat) (fl : list bool) (count : nat) : list role :=
  match fl with
  | [] => []
  | true :: fl => Frozen :: parity_roles stride fl count
  | false :: fl => match count with O => Parity :: parity_roles stride fl stride | S c => Data :: parity_roles stride fl c end
  end.
(** the number of message symbols *)
Definition payload (rs : list role) : nat := length (filter (fun r => match r with Data => true | _ => false end) rs).
(** the word for a message; [par] is the product of the message symbols since the last parity symbol *)
Fixpoint symbols (rs : list role) (par : Z) (message : list Z) : list Z :=
  match rs with
  | [] => []
  | Frozen :: rs => 1%Z :: symbols rs par message
  | Data :: rs => hd 1%Z message :: symbols rs (par * hd 1%Z message)%Z (tl message)
  | Parity :: rs => par :: symbols rs 1%Z message
  end.

(** How badly a word fits soft values, accumulated the way successive cancellation sees it: each position is charged the
    magnitude of the soft value it contradicts.  A block of at most 32 frozen positions is charged as a whole.
    [-128] counts as [-127] where a value is multiplied. *)
Definition sum (l : list Z) : Z := fold_right Z.add 0%Z l.
Definition charge (soft : list Z) : Z := sum (map (fun x => Z.max 0 (- x)) soft).
Fixpoint path_cost (n : nat) (fl : list bool) (u soft : list Z) : Z :=
  match n with
  | O => Z.max 0 (- (hd 1%Z u * hd 0%Z soft))
  | S m =>
      let h := 2 ^ m in
      let part fl u soft := if (m <=? 5) && forallb (fun f => f) fl then charge soft else path_cost m fl u soft in
      let a := firstn h soft in
      let b := skipn h soft in
      (part (firstn h fl) (firstn h u) (zip2 combine_left a b) +
       part (skipn h fl) (skipn h u) (zip3 (fun x a b => combine_right x (Z.max (-127) a) b) (transform m (firstn h u)) a b))%Z
  end.
(** how badly a codeword fits the received values: the magnitudes of those it contradicts *)
Definition discrepancy (codeword received : list Z) : Z := charge (zip2 Z.mul codeword received).

(** lane [k] of an array of vectors *)
Definition lane_of (k : nat) (vs : list (list Z)) : list Z := map (fun v => nth k v 0%Z) vs.
(** the rank array: 0 at the front, one more wherever the metric differs from the preceding one *)
Definition ranks (metric : list Z) : list Z :=
  map (fun k => Z.of_nat (length (filter (fun i => negb (nth i metric 0 =? nth (S i) metric 0)%Z) (seq 0 k)))) (seq 0 (length metric)).
Definition nondecreasing (l : list Z) : Prop := forall i j, i < j -> j < length l -> (nth i l 0 <= nth j l 0)%Z.
