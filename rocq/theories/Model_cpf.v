(** Model of cauchy_prime_field_erasure_coding.hh over PrimeField.  Definitions only.
    [w]: bits of the field's TYPE, [P]: the prime, [wi]: bits of the unsigned type IO, [ML]: MAX_LEN.
    A pointer argument [p + off] is the list [p] with the offset [off]; the buffers passed to one call do not
    overlap.  Identifiers, lengths and counts of type int are [nat]. *)
From Verif Require Import Cpp Model_pf Model_crs.
Local Open Scope N_scope.

(** prime_field.hh:17 PF(x) of an IO or a non-negative int *)
Definition cpf_pf (w x : N) : N := wrap w x.

(** cauchy_prime_field_erasure_coding.hh:15, 17 the members temp, row_num, row_den; [None] is indeterminate *)
Record cpf := { cp_temp : list (option N); cp_num : option N; cp_den : option N }.
(** a new object: no constructor *)
Definition cpf_new (ML : nat) : cpf := {| cp_temp := uninit N ML; cp_num := None; cp_den := None |}.

(** cauchy_prime_field_erasure_coding.hh:19-23 cauchy_matrix *)
Definition cpf_cauchy (w P : N) (i j : nat) : res N :=
  let row := cpf_pf w (N.of_nat i) in
  let col := cpf_pf w (N.of_nat j) in
  pf_rcp w P (pf_plus w P row col).

(** cauchy_prime_field_erasure_coding.hh:43-53 and 58-68: one round of the delayed reductions; [r] is the count down,
    decremented at the end of the round *)
Definition cpf_delay (P : N) (r : nat) (num den : N) : N * N * nat :=
  if (r =? 0)%nat then (pf_reduce P num, pf_reduce P den, 2%nat) else (num, den, (r - 1)%nat).

(** cauchy_prime_field_erasure_coding.hh:25-73 inverse_cauchy_matrix (the #else branch) *)
Definition cpf_inverse (w P : N) (rows : list N) (i j n : nat) (st : cpf) : res (N * cpf) :=
  xj <- rd rows j ;;
  let row_j := cpf_pf w xj in
  let col_i := cpf_pf w (N.of_nat i) in
  st <- (if (j =? 0)%nat then
           '(num, den, _) <- for_up 0 n (fun k '(num, den, r) =>
              xk <- rd rows k ;;
              let row_k := cpf_pf w xk in
              let col_k := cpf_pf w (N.of_nat k) in
              let num := pf_mul w num (pf_add w row_k col_i) in
              let den := if (k =? i)%nat then den else pf_mul w den (pf_sub w P col_i col_k) in
              Ok (cpf_delay P r num den)) (cpf_pf w 1, cpf_pf w 1, 2%nat) ;;
           Ok {| cp_temp := cp_temp st; cp_num := Some (pf_reduce P num); cp_den := Some (pf_reduce P den) |}
         else Ok st) ;;
  num <- get (cp_num st) ;;
  den <- get (cp_den st) ;;
  '(num, den, _) <- for_up 0 n (fun k '(num, den, r) =>
     xk <- rd rows k ;;
     let row_k := cpf_pf w xk in
     let col_k := cpf_pf w (N.of_nat k) in
     let num := pf_mul w num (pf_add w row_j col_k) in
     let den := if (k =? j)%nat then den else pf_mul w den (pf_sub w P row_j row_k) in
     Ok (cpf_delay P r num den)) (num, den, 2%nat) ;;
  let num := pf_reduce P num in
  let den := pf_reduce P den in
  q <- pf_over w P num (pf_times w P (pf_add w row_j col_i) den) ;;
  Ok (q, st).

(** cauchy_prime_field_erasure_coding.hh:74-89 mac *)
Definition cpf_mac (w P : N) (temp : list (option N)) (a : list N) (aoff : nat) (b : N) (len : nat) (first last : bool) : res (list (option N)) :=
  for_up 0 len (fun i temp =>
    x <- rd a (aoff + i) ;;
    let x := cpf_pf w x in
    v <- (if first && last then Ok (pf_times w P b x)
          else if first then Ok (pf_mul w b x)
          else if last then (t <- rdu temp i ;; Ok (pf_reduce P (pf_add w t (pf_mul w b x))))
          else (t <- rdu temp i ;; Ok (pf_add w t (pf_mul w b x)))) ;;
    wru temp i v) temp.

(** cauchy_prime_field_erasure_coding.hh:90-106 mac_sub; [v] is an int, converted to TYPE *)
Definition cpf_mac_sub (w P wi : N) (temp : list (option N)) (c : list N) (coff : nat) (a : list N) (aoff : nat) (b s : N) (len : nat) (first last : bool)
    : res (list (option N) * list N) :=
  let v := P - 1 in
  for_up 0 len (fun i '(temp, c) =>
    x <- rd a (aoff + i) ;;
    let x := cpf_pf w (if x =? s then v else x) in
    if first && last then
      c <- wr c (coff + i) (wrap wi (pf_times w P b x)) ;; Ok (temp, c)
    else if first then
      temp <- wru temp i (pf_mul w b x) ;; Ok (temp, c)
    else if last then
      t <- rdu temp i ;;
      c <- wr c (coff + i) (wrap wi (pf_reduce P (pf_add w t (pf_mul w b x)))) ;; Ok (temp, c)
    else
      t <- rdu temp i ;;
      temp <- wru temp i (pf_add w t (pf_mul w b x)) ;; Ok (temp, c)) (temp, c).

(** cauchy_prime_field_erasure_coding.hh:107-117 find_unused; the member used is overwritten at the start.
    The while loop has fuel for more rounds than there are bits. *)
Definition cpf_find_unused (P : N) (temp : list (option N)) (len : nat) : res N :=
  let bytes := N.to_nat ((P + 7) / 8) in
  let used := repeat 0 bytes in
  used <- for_up 0 len (fun i used =>
     t <- rdu temp i ;;
     u <- rd used (N.to_nat (t / 8)) ;;
     wr used (N.to_nat (t / 8)) (wrap 8 (N.lor u (N.shiftl 1 (t mod 8))))) used ;;
  while_ (S (8 * bytes))
    (fun s => u <- rd used (N.to_nat (s / 8)) ;; Ok (negb (N.land u (N.shiftl 1 (s mod 8)) =? 0)))
    (fun s => Ok (s + 1)) 0.

(** cauchy_prime_field_erasure_coding.hh:118-130 encode: the new block buffer, the returned substitute, the object *)
Definition cpf_encode (w P wi : N) (ML : nat) (data block : list N) (boff id len cnt : nat) (st : cpf) : res (list N * N * cpf) :=
  assert_ ((cnt <=? id)%nat && (N.of_nat id <? P / 2)) ;;;
  assert_ (len <=? ML)%nat ;;;
  temp <- for_up 0 cnt (fun k temp =>
     a_ik <- cpf_cauchy w P id k ;;
     cpf_mac w P temp data (len * k) a_ik len (k =? 0)%nat (k =? cnt - 1)%nat) (cp_temp st) ;;
  sub <- cpf_find_unused P temp len ;;
  block <- for_up 0 len (fun i block =>
     t <- rdu temp i ;;
     wr block (boff + i) (wrap wi (if t =? P - 1 then sub else t))) block ;;
  Ok (block, sub, {| cp_temp := temp; cp_num := cp_num st; cp_den := cp_den st |}).

(** cauchy_prime_field_erasure_coding.hh:131-138 decode *)
Definition cpf_decode (w P wi : N) (ML : nat) (data : list N) (doff : nat) (blocks subs ids : list N) (idx len cnt : nat) (st : cpf) : res (list N * cpf) :=
  assert_ (len <=? ML)%nat ;;;
  for_up 0 cnt (fun k '(data, st) =>
    '(b_ik, st) <- cpf_inverse w P ids idx k cnt st ;;
    s <- rd subs k ;;
    '(temp, data) <- cpf_mac_sub w P wi (cp_temp st) data doff blocks (len * k) b_ik s len (k =? 0)%nat (k =? cnt - 1)%nat ;;
    Ok (data, {| cp_temp := temp; cp_num := cp_num st; cp_den := cp_den st |})) (data, st).

(** the loops of a caller (tests/cpf_regression_test.cc:53-54, 59-60); the substitutes are stored in an IO array *)
Definition cpf_encode_all (w P wi : N) (ML : nat) (data blocks subs ids : list N) (len cnt : nat) (st : cpf) : res (list N * list N * cpf) :=
  for_up 0 cnt (fun i '(blocks, subs, st) =>
    id <- rd ids i ;;
    '(blocks, sub, st) <- cpf_encode w P wi ML data blocks (len * i) (N.to_nat id) len cnt st ;;
    subs <- wr subs i (wrap wi sub) ;;
    Ok (blocks, subs, st)) (blocks, subs, st).
Definition cpf_decode_all (w P wi : N) (ML : nat) (data blocks subs ids : list N) (len cnt : nat) (st : cpf) : res (list N * cpf) :=
  for_up 0 cnt (fun i '(data, st) =>
    cpf_decode w P wi ML data (len * i) blocks subs ids i len cnt st) (data, st).
