(** Model of mls.hh.  Definitions only.  [int] members are numbers below 2^31: negative polynomials
    (degree 31) and negative register values are not modelled; a shift leaving the int range is [Undef]. *)
From Verif Require Import Cpp.
Local Open Scope N_scope.

(** mls.hh:13-21 MLS::hibit; all operations on [unsigned] (32 bits) *)
Definition hibit (n : N) : N :=
  let n := wrap 32 n in
  let n := N.lor n (N.shiftr n 1) in
  let n := N.lor n (N.shiftr n 2) in
  let n := N.lor n (N.shiftr n 4) in
  let n := N.lor n (N.shiftr n 8) in
  let n := N.lor n (N.shiftr n 16) in
  N.lxor n (N.shiftr n 1).

(** mls.hh:22 the members *)
Record mls := { mls_poly : N; mls_test : N; mls_reg : N }.
(** mls.hh:24 the constructor *)
Definition mls_ctor (poly reg : N) : mls :=
  {| mls_poly := poly; mls_test := N.shiftr (hibit poly) 1; mls_reg := reg |}.
(** mls.hh:25-28 reset *)
Definition mls_reset (s : mls) (r : N) : mls :=
  {| mls_poly := mls_poly s; mls_test := mls_test s; mls_reg := r |}.
(** mls.hh:41-47 operator(): the result and the new state *)
Definition mls_next (s : mls) : res (bool * mls) :=
  let fb := negb (N.land (mls_reg s) (mls_test s) =? 0) in
  let reg := 2 * mls_reg s in
  require (reg <? 2 ^ 31) ;;;
  let reg := N.lxor reg (if fb then mls_poly s else 0) in
  Ok (fb, mls_reset s reg).
(** mls.hh:29-40 bad *)
Definition mls_bad (s : mls) (r : N) : res (bool * mls) :=
  let s := mls_reset s r in
  let len := hibit (mls_poly s) - 1 in
  x <- for_ret 1 (N.to_nat len) (fun _ s =>
         '(_, s) <- mls_next s ;;
         if mls_reg s =? r then Ok (inr (true, s)) else Ok (inl s)) s ;;
  match x with
  | inr v => Ok v
  | inl s => '(_, s) <- mls_next s ;; Ok (negb (mls_reg s =? r), s)
  end.

(** [k] calls of operator(): the results in order and the final state (driver, as in tests/mls_test.cc) *)
Fixpoint mls_calls (k : nat) (s : mls) : res (list bool * mls) :=
  match k with
  | O => Ok ([], s)
  | S k' =>
      '(b, s) <- mls_next s ;;
      '(l, s) <- mls_calls k' s ;;
      Ok (b :: l, s)
  end.
