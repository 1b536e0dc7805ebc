(** Specification vocabulary for the polar list decoders with floating point values.  Nothing of the model is used.
    Numbers and arithmetic as in Spec_polar_float.v; roles, symbols and parity as in Spec_polar_list.v. *)
From Coq Require Import List ZArith Arith Bool Floats.SpecFloat.
From Verif Require Import Spec_polar Spec_polar_float Spec_polar_list.
Import ListNotations.
Local Open Scope nat_scope.

Section Format.
Variables prec emax : Z.
(** The metric of a path says how badly it fits the soft values, as successive cancellation sees it: at each position the magnitude of
    the soft value is added if the symbol [u], 1 or -1, contradicts it. *)
Definition step_metric (u : Z) (metric soft : spec_float) : spec_float :=
  if SFltb soft (S754_zero false) then (if (u =? 1)%Z then SFsub prec emax metric soft else metric)
  else (if (u =? 1)%Z then metric else SFadd prec emax metric soft).
(** a block of frozen positions, all of whose symbols are 1, charged as a whole *)
Definition block_metric (soft : list spec_float) (metric : spec_float) : spec_float := fold_left (step_metric 1) soft metric.
(** the metric after a word [u] of length [2^n], starting with [metric]; blocks of at most 32 frozen positions are charged as a whole *)
Fixpoint path_metric (n : nat) (fl : list bool) (u : list Z) (soft : list spec_float) (metric : spec_float) : spec_float :=
  match n with
  | O => step_metric (hd 1%Z u) metric (hd (S754_zero false) soft)
  | S m =>
      let h := 2 ^ m in
      let part fl u soft metric := if (m <=? 5) && forallb (fun f => f) fl then block_metric soft metric else path_metric m fl u soft metric in
      let a := firstn h soft in
      let b := skipn h soft in
      part (skipn h fl) (skipn h u) (zip3 (combine_right_f prec emax) (map (hard_value prec) (transform m (firstn h u))) a b)
        (part (firstn h fl) (firstn h u) (zip2 (combine_left_f prec emax) a b) metric)
  end.
End Format.

(** lane [k] of an array of vectors *)
Definition lane_off (k : nat) (vs : list (list spec_float)) : list spec_float := map (fun v => nth k v (S754_zero false)) vs.
(** the rank array: 0 at the front, one more wherever the metric differs from the preceding one *)
Definition ranksf (metric : list spec_float) : list Z :=
  map (fun k => Z.of_nat (length (filter (fun i => negb (SFeqb (nth i metric (S754_zero false)) (nth (S i) metric (S754_zero false)))) (seq 0 k)))) (seq 0 (length metric)).
Definition nondecreasingf (l : list spec_float) : Prop := forall i j, i < j -> j < length l -> SFltb (nth j l (S754_zero false)) (nth i l (S754_zero false)) = false.
(** 1000000 in the format: the metric with which all paths but the first start, and that of a path that violates a parity symbol *)
Definition penalty (prec emax : Z) : spec_float := binary_normalize prec emax 1000000 0 false.
