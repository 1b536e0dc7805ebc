(** Model of hadamard_encoder.hh, hadamard_decoder.hh, simplex_encoder.hh and simplex_decoder.hh.  Definitions only.
    [int8_t] and [int] values are [Z]; every [int] result goes through [chk], so signed overflow is [Undef]. *)
From Verif Require Import Cpp.
Local Open Scope Z_scope.

(** hadamard_encoder.hh:18-26, simplex_encoder.hh:18-26 parity(unsigned x) *)
Definition wht_parity (x : N) : bool :=
  let x := N.lxor x (N.shiftr x 16) in
  let x := N.lxor x (N.shiftr x 8) in
  let x := N.lxor x (N.shiftr x 4) in
  let x := N.lxor x (N.shiftr x 2) in
  let x := N.lxor x (N.shiftr x 1) in
  negb (N.land x 1 =? 0)%N.

(** hadamard_encoder.hh:28-32, simplex_encoder.hh:28-32 the constructors: the table mod[W] *)
Definition wht_mod (K : nat) : res (list (option Z)) :=
  let W := (2 ^ K)%nat in
  for_up 0 W (fun i m => wru m i (1 - 2 * Z.b2z (wht_parity (N.of_nat i)))) (uninit Z W).

(** reading mod[...] at a (non-negative) [int] index *)
Definition rduZ {A} (a : list (option A)) (i : Z) : res A := if i <? 0 then Undef else rdu a (Z.to_nat i).

(** hadamard_encoder.hh:33-37 operator(); [msg] is any [int] *)
Definition had_encode (K : nat) (mod_ : list (option Z)) (code : list Z) (msg : Z) : res (list Z) :=
  let N := (2 ^ (K - 1))%nat in
  for_up 0 N (fun i code =>
    x <- rduZ mod_ (Z.land msg (Z.lor (Z.of_nat i) (Z.of_nat N))) ;;
    wr code i x) code.

(** simplex_encoder.hh:33-37 operator() *)
Definition spx_encode (K : nat) (mod_ : list (option Z)) (code : list Z) (msg : Z) : res (list Z) :=
  let N := (2 ^ K - 1)%nat in
  for_up 0 N (fun i code =>
    x <- rduZ mod_ (Z.land msg (Z.of_nat i + 1)) ;;
    wr code i x) code.

(** hadamard_decoder.hh:25-30, simplex_decoder.hh:27-32 the innermost loop: one block of butterflies *)
Definition wht_block (h i : nat) (sum : list (option Z)) : res (list (option Z)) :=
  for_up i (i + h) (fun j sum =>
    a <- rdu sum j ;;
    b <- rdu sum (j + h) ;;
    x <- chk (a + b) ;;
    y <- chk (a - b) ;;
    sum <- wru sum j x ;;
    wru sum (j + h) y) sum.
(** hadamard_decoder.hh:23-32, simplex_decoder.hh:25-34 for (h = 2; h < size; h *= 2); the fuel exceeds the number of rounds *)
Definition wht_stages (size : nat) (sum : list (option Z)) : res (list (option Z)) :=
  '(_, sum) <- while_ (S size) (fun '(h, sum) => Ok (h <? size)%nat)
     (fun '(h, sum) =>
        sum <- for_step 0 size (2 * h) (wht_block h) sum ;;
        Ok ((h * 2)%nat, sum)) (2%nat, sum) ;;
  Ok sum.

(** std::abs(int): undefined for the most negative value *)
Definition abs_int (x : Z) : res Z := chk (Z.abs x).

(** the if-else shared by all the search loops, hadamard_decoder.hh:37-43, simplex_decoder.hh:38-44 *)
Definition wht_update (mag msg : Z) (s : Z * Z * Z) : Z * Z * Z :=
  let '(word, best, next) := s in
  if best <? mag then (msg, mag, best) else if next <? mag then (word, best, mag) else (word, best, next).
(** hadamard_decoder.hh:33-47, 88-102, 144-158 the search over |sum[i]| *)
Definition had_search (N : nat) (sum : list (option Z)) : res Z :=
  '(word, best, next) <- for_up 0 N (fun i s =>
      v <- rdu sum i ;;
      mag <- abs_int v ;;
      msg <- chk (Z.of_nat i + Z.of_nat N * Z.b2z (v <? 0)) ;;
      Ok (wht_update mag msg s)) (0, 0, 0) ;;
  Ok (if best =? next then -1 else word).
(** simplex_decoder.hh:35-48, 71-84, 125-138, 221-234 the search over sum[msg] *)
Definition spx_search (W : nat) (sum : list (option Z)) : res Z :=
  '(word, best, next) <- for_up 0 W (fun msg s =>
      mag <- rdu sum msg ;;
      Ok (wht_update mag (Z.of_nat msg) s)) (0, 0, 0) ;;
  Ok (if best =? next then -1 else word).

(** hadamard_decoder.hh:16-49 HadamardDecoder<K>, the primary template *)
Definition had_decode_gen (K : nat) (code : list Z) : res Z :=
  let N := (2 ^ (K - 1))%nat in
  sum <- for_step 0 (N - 1) 2 (fun i sum =>
     a <- rd code i ;;
     b <- rd code (i + 1) ;;
     x <- chk (a + b) ;;
     sum <- wru sum i x ;;
     y <- chk (a - b) ;;
     wru sum (i + 1) y) (uninit Z N) ;;
  sum <- wht_stages N sum ;;
  had_search N sum.

(** simplex_decoder.hh:16-50 SimplexDecoder<K>, the primary template *)
Definition spx_decode_gen (K : nat) (code : list Z) : res Z :=
  let W := (2 ^ K)%nat in
  c0 <- rd code 0 ;;
  sum <- wru (uninit Z W) 0 c0 ;;
  x <- chk (- c0) ;;
  sum <- wru sum 1 x ;;
  sum <- for_step 1 (W - 2) 2 (fun i sum =>
     a <- rd code i ;;
     b <- rd code (i + 1) ;;
     x <- chk (a + b) ;;
     sum <- wru sum (i + 1) x ;;
     y <- chk (a - b) ;;
     wru sum (i + 2) y) sum ;;
  sum <- wht_stages W sum ;;
  spx_search W sum.

(** an array with an initialiser list *)
Fixpoint chks (l : list Z) : res (list Z) :=
  match l with
  | [] => Ok []
  | x :: l' => x <- chk x ;; l' <- chks l' ;; Ok (x :: l')
  end.
(** [a[i]] for a literal [i] below the size of [a] *)
Definition el (a : list Z) (i : nat) : Z := nth i a 0.

(** hadamard_decoder.hh:52-65 HadamardDecoder<2> *)
Definition had_decode2 (code : list Z) : res Z :=
  require (2 <=? length code)%nat ;;;
  x <- chk (el code 0 + el code 1) ;;
  y <- chk (el code 0 - el code 1) ;;
  mx <- abs_int x ;;
  my <- abs_int y ;;
  Ok (if mx =? my then -1 else if my <? mx then 2 * Z.b2z (x <? 0) else 1 + 2 * Z.b2z (y <? 0)).

(** hadamard_decoder.hh:69-104 HadamardDecoder<3> *)
Definition had_decode3 (code : list Z) : res Z :=
  require (4 <=? length code)%nat ;;;
  tmp <- chks [el code 0 + el code 1; el code 0 - el code 1; el code 2 + el code 3; el code 2 - el code 3] ;;
  sum <- chks [el tmp 0 + el tmp 2; el tmp 1 + el tmp 3; el tmp 0 - el tmp 2; el tmp 1 - el tmp 3] ;;
  had_search 4 (map Some sum).

(** hadamard_decoder.hh:107-160 HadamardDecoder<4> *)
Definition had_decode4 (c : list Z) : res Z :=
  require (8 <=? length c)%nat ;;;
  d <- chks [el c 0 + el c 1; el c 0 - el c 1; el c 2 + el c 3; el c 2 - el c 3;
             el c 4 + el c 5; el c 4 - el c 5; el c 6 + el c 7; el c 6 - el c 7] ;;
  e <- chks [el d 0 + el d 2; el d 1 + el d 3; el d 0 - el d 2; el d 1 - el d 3;
             el d 4 + el d 6; el d 5 + el d 7; el d 4 - el d 6; el d 5 - el d 7] ;;
  sum <- chks [el e 0 + el e 4; el e 1 + el e 5; el e 2 + el e 6; el e 3 + el e 7;
               el e 0 - el e 4; el e 1 - el e 5; el e 2 - el e 6; el e 3 - el e 7] ;;
  had_search 8 (map Some sum).

(** the class template and its explicit specialisations *)
Definition had_decode (K : nat) (code : list Z) : res Z :=
  match K with 2%nat => had_decode2 code | 3%nat => had_decode3 code | 4%nat => had_decode4 code | _ => had_decode_gen K code end.

(** simplex_decoder.hh:53-86 SimplexDecoder<2> *)
Definition spx_decode2 (code : list Z) : res Z :=
  require (3 <=? length code)%nat ;;;
  tmp <- chks [el code 0; - el code 0; el code 1 + el code 2; el code 1 - el code 2] ;;
  sum <- chks [el tmp 0 + el tmp 2; el tmp 1 + el tmp 3; el tmp 0 - el tmp 2; el tmp 1 - el tmp 3] ;;
  spx_search 4 (map Some sum).

(** simplex_decoder.hh:89-140 SimplexDecoder<3> *)
Definition spx_decode3 (c : list Z) : res Z :=
  require (7 <=? length c)%nat ;;;
  d <- chks [el c 0; - el c 0; el c 1 + el c 2; el c 1 - el c 2;
             el c 3 + el c 4; el c 3 - el c 4; el c 5 + el c 6; el c 5 - el c 6] ;;
  e <- chks [el d 0 + el d 2; el d 1 + el d 3; el d 0 - el d 2; el d 1 - el d 3;
             el d 4 + el d 6; el d 5 + el d 7; el d 4 - el d 6; el d 5 - el d 7] ;;
  sum <- chks [el e 0 + el e 4; el e 1 + el e 5; el e 2 + el e 6; el e 3 + el e 7;
               el e 0 - el e 4; el e 1 - el e 5; el e 2 - el e 6; el e 3 - el e 7] ;;
  spx_search 8 (map Some sum).

(** simplex_decoder.hh:143-236 SimplexDecoder<4> *)
Definition spx_decode4 (c : list Z) : res Z :=
  require (15 <=? length c)%nat ;;;
  d <- chks [el c 0; - el c 0; el c 1 + el c 2; el c 1 - el c 2;
             el c 3 + el c 4; el c 3 - el c 4; el c 5 + el c 6; el c 5 - el c 6;
             el c 7 + el c 8; el c 7 - el c 8; el c 9 + el c 10; el c 9 - el c 10;
             el c 11 + el c 12; el c 11 - el c 12; el c 13 + el c 14; el c 13 - el c 14] ;;
  e <- chks [el d 0 + el d 2; el d 1 + el d 3; el d 0 - el d 2; el d 1 - el d 3;
             el d 4 + el d 6; el d 5 + el d 7; el d 4 - el d 6; el d 5 - el d 7;
             el d 8 + el d 10; el d 9 + el d 11; el d 8 - el d 10; el d 9 - el d 11;
             el d 12 + el d 14; el d 13 + el d 15; el d 12 - el d 14; el d 13 - el d 15] ;;
  f <- chks [el e 0 + el e 4; el e 1 + el e 5; el e 2 + el e 6; el e 3 + el e 7;
             el e 0 - el e 4; el e 1 - el e 5; el e 2 - el e 6; el e 3 - el e 7;
             el e 8 + el e 12; el e 9 + el e 13; el e 10 + el e 14; el e 11 + el e 15;
             el e 8 - el e 12; el e 9 - el e 13; el e 10 - el e 14; el e 11 - el e 15] ;;
  sum <- chks [el f 0 + el f 8; el f 1 + el f 9; el f 2 + el f 10; el f 3 + el f 11;
               el f 4 + el f 12; el f 5 + el f 13; el f 6 + el f 14; el f 7 + el f 15;
               el f 0 - el f 8; el f 1 - el f 9; el f 2 - el f 10; el f 3 - el f 11;
               el f 4 - el f 12; el f 5 - el f 13; el f 6 - el f 14; el f 7 - el f 15] ;;
  spx_search 16 (map Some sum).

Definition spx_decode (K : nat) (code : list Z) : res Z :=
  match K with 2%nat => spx_decode2 code | 3%nat => spx_decode3 code | 4%nat => spx_decode4 code | _ => spx_decode_gen K code end.
