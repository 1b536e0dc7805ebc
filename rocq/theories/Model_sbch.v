(** Model of short_bch_code_encoder.hh and short_bch_code_decoder.hh.  Definitions only.
    [int] and [short] values are [Z]; the template parameters are N = [n], K = [k], G = [g], T = [t]; P = n - k.
    The static assertions n < 32, n - k < 16, 0 < t <= 3 are hypotheses of the theorems. *)
From Verif Require Import Cpp.
Local Open Scope Z_scope.

(** [x << s] on [int]: undefined when the result is not representable *)
Definition shl (x : Z) (s : nat) : res Z := chk (Z.shiftl x (Z.of_nat s)).
(** conversion of an [int] to [short] *)
Definition to_short (x : Z) : Z := (x + 32768) mod 65536 - 32768.
(** the value of an [int] whose 32 low bits are those of [x] (a left shift into the sign bit) *)
Definition to_int (x : Z) : Z := (x + 2147483648) mod 4294967296 - 2147483648.

(** short_bch_code_encoder.hh:19-26, short_bch_code_decoder.hh:22-29 modgen *)
Definition sb_modgen (n k : nat) (g inp : Z) : res Z :=
  for_down k 0 (fun i inp =>
    let tmp := Z.shiftr inp (Z.of_nat (i + (n - k))) in
    s <- shl g i ;;
    Ok (Z.lxor inp (Z.land tmp 1 * s))) inp.

(** short_bch_code_encoder.hh:30-31, short_bch_code_decoder.hh:43-44 the table par[W] *)
Definition sb_par (n k : nat) (g : Z) : res (list (option Z)) :=
  let W := (2 ^ k)%nat in
  for_up 0 W (fun i par =>
    x <- shl (Z.of_nat i) (n - k) ;;
    y <- sb_modgen n k g x ;;
    wru par i (to_short y)) (uninit Z W).

Definition rduZ' {A} (a : list (option A)) (i : Z) : res A := if i <? 0 then Undef else rdu a (Z.to_nat i).

(** short_bch_code_encoder.hh:33-36 operator()(int) *)
Definition sb_encode (n k : nat) (par : list (option Z)) (msg : Z) : res Z :=
  x <- shl msg (n - k) ;;
  p <- rduZ' par msg ;;
  Ok (Z.lor x p).

(** short_bch_code_encoder.hh:37-43 operator()(int8_t *, int) *)
Definition sb_encode_soft (n k : nat) (par : list (option Z)) (code : list Z) (msg : Z) : res (list Z * Z) :=
  cw <- sb_encode n k par msg ;;
  code <- for_up 0 n (fun i code => wr code i (1 - 2 * Z.land (Z.shiftr cw (Z.of_nat i)) 1)) code ;;
  Ok (code, cw).

(** short_bch_code_decoder.hh:30-39 metric; the left shift has the C++20 meaning *)
Definition sb_metric (n : nat) (soft : list Z) (hard : Z) : res Z :=
  if hard <? 0 then Ok (-1) else
  for_up 0 n (fun i sum =>
    x <- rd soft i ;;
    p <- chk (Z.shiftr (to_int (Z.shiftl hard (31 - Z.of_nat i))) 31 * x) ;;
    chk (sum + p)) 0.

(** short_bch_code_decoder.hh:45-55 the table err[R]; three nested loops over single bits a > b > c *)
Definition sb_set (n k : nat) (g pat : Z) (err : list Z) : res (list Z) :=
  s <- sb_modgen n k g pat ;;
  wrZ err s pat.
Definition halving {S} (on : bool) (body : Z -> S -> res S) (a : Z) (s : S) : res S :=
  '(_, s) <- while_ 33 (fun '(a, _) => Ok (on && negb (a =? 0)))
     (fun '(a, s) => s <- body a s ;; Ok (Z.shiftr a 1, s)) (a, s) ;;
  Ok s.
Definition sb_err (n k : nat) (g : Z) (t : nat) : res (list Z) :=
  a0 <- shl 1 (n - 1) ;;
  halving (1 <=? t)%nat (fun a err =>
    err <- sb_set n k g a err ;;
    halving (2 <=? t)%nat (fun b err =>
      err <- sb_set n k g (Z.lor a b) err ;;
      halving (3 <=? t)%nat (fun c err =>
        sb_set n k g (Z.lor (Z.lor a b) c) err)
        (Z.shiftr b 1) err)
      (Z.shiftr a 1) err)
    a0 (repeat 0 (2 ^ (n - k))).

(** short_bch_code_decoder.hh:57-62 operator()(int) *)
Definition sb_hard (n k : nat) (par : list (option Z)) (err : list Z) (inp : Z) : res Z :=
  p <- rduZ' par (Z.shiftr inp (Z.of_nat (n - k))) ;;
  let syn := Z.land (Z.lxor p inp) (2 ^ Z.of_nat (n - k) - 1) in
  pat <- rdZ err syn ;;
  Ok (if negb (pat =? 0) || (syn =? 0) then Z.lxor inp pat else -1).

(** short_bch_code_decoder.hh:75-86 the lambda update; state: word, best, next *)
Definition sb_update (n : nat) (code : list Z) (hard : Z) (s : Z * Z * Z) : res (Z * Z * Z) :=
  let '(word, best, next) := s in
  if hard =? word then Ok s else
  met <- sb_metric n code hard ;;
  Ok (if best <? met then (hard, met, best) else if next <? met then (word, best, met) else s).

(** short_bch_code_decoder.hh:97-107 the positions worst[L], L = T *)
Definition sb_worst (n t : nat) (code : list Z) : res (list Z) :=
  for_up 0 n (fun k worst =>
    ck <- rd code k ;;
    j <- while_ (S t) (fun j =>
           if (j <? t)%nat then (w <- rd worst j ;; cw <- rdZ code w ;; Ok (Z.abs cw <? Z.abs ck)) else Ok false)
         (fun j => Ok (S j)) 0%nat ;;
    worst <- for_down t (S j) (fun i worst => w <- rd worst (i - 1) ;; wr worst i w) worst ;;
    if (j <? t)%nat then wr worst j (Z.of_nat k) else Ok worst) (repeat 0 t).

(** short_bch_code_decoder.hh:63-126 operator()(const int8_t * ); the branches under if (0) are dead code *)
Definition sb_soft (n k t : nat) (par : list (option Z)) (err : list Z) (code : list Z) : res Z :=
  cw <- for_up 0 n (fun i cw =>
     c <- rd code i ;;
     x <- shl (Z.b2z (c <? 0)) i ;;
     Ok (Z.lor cw x)) 0 ;;
  word <- sb_hard n k par err cw ;;
  best <- sb_metric n code word ;;
  let s := (word, best, -2) in
  s <- (if (4 <? k)%nat then
          worst <- sb_worst n t code ;;
          for_up 1 (2 ^ t) (fun j s =>
            tmp <- for_up 0 t (fun i tmp =>
               w <- rd worst i ;;
               x <- shl (Z.land (Z.shiftr (Z.of_nat j) (Z.of_nat i)) 1) (Z.to_nat w) ;;
               Ok (Z.lor tmp x)) 0 ;;
            dec <- sb_hard n k par err (Z.lxor cw tmp) ;;
            sb_update n code dec s) s
        else Ok s) ;;
  '(word, best, next) <- (if (k <=? 4)%nat then
          for_up 0 (2 ^ k) (fun msg s =>
            x <- shl (Z.of_nat msg) (n - k) ;;
            p <- rduZ' par (Z.of_nat msg) ;;
            sb_update n code (Z.lor x p) s) s
        else Ok s) ;;
  Ok (if best =? next then -1 else word).
