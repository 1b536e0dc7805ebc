(** Model of galois_field.hh.  Definitions only.
    [w] is the number of bits of the unsigned type TYPE; values stored in a TYPE are wrapped to [w]
    bits.  The static pointers LOG and EXP are one field of the state: [None] is nullptr. *)
From Verif Require Import Cpp.
Local Open Scope N_scope.

(** galois_field.hh:84-90: template parameters and the tables behind the static pointers *)
Definition table := list (option N).
Record gf := { gf_w : N; gf_M : N; gf_POLY : N; gf_T : option (table * table) }.
(** galois_field.hh:20, 55, 86 Q and N *)
Definition gf_Q (G : gf) : N := 2 ^ gf_M G.
Definition gf_N (G : gf) : N := gf_Q G - 1.

(** galois_field.hh:91-94 Tables::next *)
Definition gf_next (w M POLY a : N) : N :=
  if negb (N.land a (wrap w (N.shiftr (2 ^ M) 1)) =? 0)
  then wrap w (N.lxor (N.shiftl a 1) (wrap w POLY))
  else wrap w (N.shiftl a 1).

(** galois_field.hh:107-120 the constructor Tables(); [cur] is the content of the static pointers *)
Definition tables_ctor (w M POLY : N) (cur : option (table * table)) : res (table * table) :=
  assert_ (match cur with None => true | Some _ => false end) ;;;
  let Q := 2 ^ M in
  let NN := Q - 1 in
  exp <- wru (uninit N (N.to_nat Q)) (N.to_nat NN) 0 ;;
  log <- wru (uninit N (N.to_nat Q)) 0 NN ;;
  '(a, log, exp) <- for_up 0 (N.to_nat NN) (fun i '(a, log, exp) =>
     exp <- wru exp i a ;;
     log <- wru log (N.to_nat a) (N.of_nat i) ;;
     assert_ ((i =? 0)%nat || negb (a =? 1)) ;;;
     Ok (gf_next w M POLY a, log, exp)) (1, log, exp) ;;
  assert_ (1 =? a) ;;;
  Ok (log, exp).
(** galois_field.hh:307-319 GaloisField: an object is its tables *)
Definition gf_create (w M POLY : N) : res gf :=
  t <- tables_ctor w M POLY None ;;
  Ok {| gf_w := w; gf_M := M; gf_POLY := POLY; gf_T := Some t |}.

(** galois_field.hh:95-106 Tables::log, Tables::exp *)
Definition gf_log (G : gf) (a : N) : res N :=
  match gf_T G with
  | None => Abort
  | Some (log, _) => assert_ (a <=? gf_N G) ;;; rdu log (N.to_nat a)
  end.
Definition gf_exp (G : gf) (a : N) : res N :=
  match gf_T G with
  | None => Abort
  | Some (_, exp) => assert_ (a <=? gf_N G) ;;; rdu exp (N.to_nat a)
  end.

(** galois_field.hh:25-28 Value(TYPE v); 60-63 Index(TYPE i) *)
Definition mkValue (G : gf) (v : N) : res N := assert_ (v <=? gf_N G) ;;; Ok v.
Definition mkIndex (G : gf) (i : N) : res N := assert_ (i <? gf_N G) ;;; Ok i.
Definition okV (G : gf) (v : N) : res unit := assert_ (v <=? gf_N G).
Definition okI (G : gf) (i : N) : res unit := assert_ (i <? gf_N G).
Definition nz (v : N) : bool := negb (v =? 0).

(** galois_field.hh:136-142 index(Value); 144-148 value(Index) *)
Definition gf_index (G : gf) (a : N) : res N :=
  okV G a ;;; assert_ (nz a) ;;; i <- gf_log G a ;; mkIndex G i.
Definition gf_value (G : gf) (a : N) : res N :=
  okI G a ;;; v <- gf_exp G a ;; mkValue G v.

(** galois_field.hh:150-164 == and != of Values *)
Definition v_eq (G : gf) (a b : N) : res bool := okV G a ;;; okV G b ;;; Ok (a =? b).
Definition v_neq (G : gf) (a b : N) : res bool := okV G a ;;; okV G b ;;; Ok (negb (a =? b)).
(** galois_field.hh:166-172 Value + Value; 174-178 -Value; 180-184 Value - Value *)
Definition v_add (G : gf) (a b : N) : res N := okV G a ;;; okV G b ;;; mkValue G (N.lxor a b).
Definition v_neg (G : gf) (a : N) : res N := Ok a.
Definition v_sub (G : gf) (a b : N) : res N := v_add G a b.
(** galois_field.hh:186-193 Index * Index.  [tmp - modulus] is converted to TYPE, that is modulo 2^w. *)
Definition i_mul (G : gf) (a b : N) : res N :=
  okI G a ;;; okI G b ;;;
  let tmp := wrap (gf_w G) (a + b) in
  mkIndex G (if gf_N G - a <=? b then wrap (gf_w G) (tmp + (2 ^ gf_w G - gf_N G)) else tmp).
(** galois_field.hh:195-201 Value * Value *)
Definition v_mul (G : gf) (a b : N) : res N :=
  okV G a ;;; okV G b ;;;
  if negb (nz a) || negb (nz b) then mkValue G 0
  else (i <- gf_index G a ;; j <- gf_index G b ;; k <- i_mul G i j ;; gf_value G k).
(** galois_field.hh:203-208 rcp(Index); 210-216 rcp(Value) *)
Definition i_rcp (G : gf) (a : N) : res N :=
  okI G a ;;; mkIndex G (if a =? 0 then 0 else gf_N G - a).
Definition v_rcp (G : gf) (a : N) : res N :=
  okV G a ;;; assert_ (nz a) ;;;
  i <- gf_index G a ;; k <- i_rcp G i ;; gf_value G k.
(** galois_field.hh:218-225 Index / Index *)
Definition i_div (G : gf) (a b : N) : res N :=
  okI G a ;;; okI G b ;;;
  let tmp := wrap (gf_w G) (a + (2 ^ gf_w G - b)) in
  mkIndex G (if a <? b then wrap (gf_w G) (tmp + gf_N G) else tmp).
(** galois_field.hh:227-234 Value / Value *)
Definition v_div (G : gf) (a b : N) : res N :=
  okV G a ;;; okV G b ;;; assert_ (nz b) ;;;
  if negb (nz a) then mkValue G 0
  else (i <- gf_index G a ;; j <- gf_index G b ;; k <- i_div G i j ;; gf_value G k).
(** galois_field.hh:236-243 Index / Value; 245-251 Value / Index *)
Definition iv_div (G : gf) (a b : N) : res N :=
  okI G a ;;; okV G b ;;; assert_ (nz b) ;;;
  j <- gf_index G b ;; k <- i_div G a j ;; gf_value G k.
Definition vi_div (G : gf) (a b : N) : res N :=
  okV G a ;;; okI G b ;;;
  if negb (nz a) then mkValue G 0
  else (i <- gf_index G a ;; k <- i_div G i b ;; gf_value G k).
(** galois_field.hh:253-259 Index * Value; 261-267 Value * Index *)
Definition iv_mul (G : gf) (a b : N) : res N :=
  okI G a ;;; okV G b ;;;
  if negb (nz b) then mkValue G 0
  else (j <- gf_index G b ;; k <- i_mul G a j ;; gf_value G k).
Definition vi_mul (G : gf) (a b : N) : res N :=
  okV G a ;;; okI G b ;;;
  if negb (nz a) then mkValue G 0
  else (i <- gf_index G a ;; k <- i_mul G i b ;; gf_value G k).
(** galois_field.hh:269-276, 278-285, 287-294, 296-303 the four fma overloads *)
Definition fma_iiv (G : gf) (a b c : N) : res N :=
  okI G a ;;; okI G b ;;; okV G c ;;;
  k <- i_mul G a b ;; v <- gf_value G k ;; v_add G v c.
Definition fma_ivv (G : gf) (a b c : N) : res N :=
  okI G a ;;; okV G b ;;; okV G c ;;;
  if negb (nz b) then Ok c
  else (j <- gf_index G b ;; k <- i_mul G a j ;; v <- gf_value G k ;; v_add G v c).
Definition fma_viv (G : gf) (a b c : N) : res N :=
  okV G a ;;; okI G b ;;; okV G c ;;;
  if negb (nz a) then Ok c
  else (i <- gf_index G a ;; k <- i_mul G i b ;; v <- gf_value G k ;; v_add G v c).
Definition fma_vvv (G : gf) (a b c : N) : res N :=
  okV G a ;;; okV G b ;;; okV G c ;;;
  if negb (nz a) || negb (nz b) then Ok c
  else (i <- gf_index G a ;; j <- gf_index G b ;; k <- i_mul G i j ;; v <- gf_value G k ;; v_add G v c).
(** galois_field.hh:31-45 Value::operator *= and += (the new value of the left operand); 65-76 Index::operator *= and /= *)
Definition v_mul_assign_i (G : gf) (x a : N) : res N := okI G a ;;; vi_mul G x a.
Definition v_mul_assign_v (G : gf) (x a : N) : res N := okV G a ;;; v_mul G x a.
Definition v_add_assign (G : gf) (x a : N) : res N := okV G a ;;; v_add G x a.
Definition i_mul_assign (G : gf) (x a : N) : res N := okI G a ;;; okI G x ;;; i_mul G x a.
Definition i_div_assign (G : gf) (x a : N) : res N := okI G a ;;; okI G x ;;; i_div G x a.

(** galois_field.hh:321-343 GaloisFieldReference: constructor assertion *)
Definition refmk (M v : N) : res N := assert_ (v <=? 2 ^ M - 1) ;;; Ok v.
(** galois_field.hh:357-373 + and - *)
Definition ref_add (M a b : N) : res N := refmk M (N.lxor a b).
(** galois_field.hh:375-395 operator *; state (p, a, b), members are stored in a TYPE *)
Definition ref_mul (w M POLY a b : N) : res N :=
  '(p, _, _) <- for_up 0 (N.to_nat M) (fun _ '(p, a, b) =>
     let p := if N.odd b then N.lxor p a else p in
     let a := if negb (N.land a (wrap w (N.shiftl 1 (M - 1))) =? 0)
              then wrap w (N.lxor (N.shiftl a 1) (wrap w POLY))
              else wrap w (N.shiftl a 1) in
     Ok (p, a, N.shiftr b 1)) (0, a, b) ;;
  Ok p.
(** galois_field.hh:406-415 the lambda degree: 31 - __builtin_clz(a), undefined for 0 *)
Definition ref_degree (a : N) : res Z :=
  require (nz a && (a <? 2 ^ 32)) ;;; Ok (Z.of_N (N.log2 a)).
(** left shift of a TYPE by an int, stored back to a TYPE: a negative or too large count is undefined *)
Definition ref_shl (w x : N) (j : Z) : res N :=
  require ((0 <=? j) && (j <? 32))%Z ;;; Ok (wrap w (N.shiftl x (Z.to_N j))).
(** galois_field.hh:397-439 rcp; state (newr, r, newt, t, k) *)
Definition ref_rcp (fuel : nat) (w M POLY a : N) : res N :=
  assert_ (nz a) ;;;
  if a =? 1 then Ok a else
  let newr := wrap w POLY in
  let r := a in
  let newt := 0 in
  let t := 1 in
  k <- ref_degree r ;;
  let j := (Z.of_N M - k)%Z in
  x <- ref_shl w r j ;; let newr := N.lxor newr x in
  y <- ref_shl w t j ;; let newt := N.lxor newt y in
  '(_, _, newt, _, _) <- while_ fuel
    (fun '(newr, r, newt, t, k) => Ok (negb (newr =? 1)))
    (fun '(newr, r, newt, t, k) =>
       l <- ref_degree newr ;;
       let j := (l - k)%Z in
       let '(newr, r, newt, t, k, j) :=
         if (j <? 0)%Z then (r, newr, t, newt, l, (- j)%Z) else (newr, r, newt, t, k, j) in
       x <- ref_shl w r j ;;
       y <- ref_shl w t j ;;
       Ok (N.lxor newr x, r, N.lxor newt y, t, k))
    (newr, r, newt, t, k) ;;
  refmk M newt.
(** galois_field.hh:441-446 operator / *)
Definition ref_div (fuel : nat) (w M POLY a b : N) : res N :=
  assert_ (nz b) ;;; c <- ref_rcp fuel w M POLY b ;; ref_mul w M POLY a c.
