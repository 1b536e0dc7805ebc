(** Specification vocabulary for C07-C10. *)
From Coq Require Import NArith.
Local Open Scope N_scope.

(** Every non-zero [n] bit seed lies on one cycle through all 2^n - 1 non-zero words: it returns after
    2^n - 1 calls, no earlier, no state on the way is zero, and every non-zero word is visited. *)
Definition full_period (n : N) (f : N -> N) : Prop :=
  forall s, 0 < s < 2 ^ n ->
    N.iter (2 ^ n - 1) f s = s /\
    (forall k, 0 < k < 2 ^ n - 1 -> N.iter k f s <> s) /\
    (forall k, 0 < N.iter k f s < 2 ^ n) /\
    (forall y, 0 < y < 2 ^ n -> exists k, k < 2 ^ n - 1 /\ N.iter k f s = y).

(** The same for a state of type [S]: [ok] are the states the C++ object can hold, [zero] the all-zero one. *)
Definition one_cycle {S : Type} (ok : S -> Prop) (zero : S) (f : S -> S) (period : N) : Prop :=
  forall s, ok s -> s <> zero ->
    N.iter period f s = s /\
    (forall k, 0 < k < period -> N.iter k f s <> s) /\
    (forall k, ok (N.iter k f s) /\ N.iter k f s <> zero) /\
    (forall t, ok t -> t <> zero -> exists k, k < period /\ N.iter k f s = t).

(** the [k]-th number an object in state [s] returns, counting from 0 *)
Definition output {S : Type} (next : S -> S * N) (s : S) (k : N) : N :=
  snd (next (N.iter k (fun s => fst (next s)) s)).
(** exactly one [k] below [n] *)
Definition exactly_one_below (n : N) (P : N -> Prop) : Prop :=
  exists k, k < n /\ P k /\ forall k', k' < n -> P k' -> k' = k.
