(** Model of bose_chaudhuri_hocquenghem_encoder.hh and bose_chaudhuri_hocquenghem_decoder.hh.  Definitions only.
    [NP] = N - K >= 1 parity bits.  An initializer_list<int> is a list of numbers (a negative int is rejected
    by assert(0 < m) like 0).  The debugging code under if (0) is not modelled. *)
From Verif Require Import Cpp Model_bits Model_gf Model_rs.
Local Open Scope N_scope.

(** bose_chaudhuri_hocquenghem_encoder.hh:36-39: m_degree, for m > 0; 32 is enough iterations for an int *)
Definition bch_degree (m : N) : res nat :=
  d <- while_ 33 (fun d => Ok (nz (N.shiftr m (N.of_nat d)))) (fun d => Ok (S d)) 0%nat ;;
  Ok (d - 1)%nat.

(** the loop over an initializer_list *)
Fixpoint bch_each {S} (ms : list N) (body : N -> S -> res S) (s : S) : res S :=
  match ms with [] => Ok s | m :: ms => s <- body m s ;; bch_each ms body s end.

(** bose_chaudhuri_hocquenghem_encoder.hh:27-60 BoseChaudhuriHocquenghemEncoder(): the array generator.
    The loop of lines 31-32 sets all bytes to zero. *)
Definition bch_generator (NP : nat) (ms : list N) : res (list N) :=
  let np := Z.of_nat NP in
  let generator := repeat 0 ((NP + 1 + 7) / 8) in
  generator <- set_be_bit generator np true ;;
  '(generator, generator_degree) <- bch_each ms (fun m '(generator, generator_degree) =>
     assert_ (nz m) ;;;
     m_degree <- bch_degree m ;;
     assert_ (generator_degree + m_degree <=? NP + 1)%nat ;;;
     generator <- for_down (S generator_degree) 0 (fun i generator =>
        b <- get_be_bit generator (np - Z.of_nat i) ;;
        if negb b then Ok generator else
        generator <- set_be_bit generator (np - Z.of_nat i) (N.odd m) ;;
        for_up 1 (S m_degree) (fun j generator =>
          xor_be_bit generator (np - (Z.of_nat i + Z.of_nat j)) (N.odd (N.shiftr m (N.of_nat j)))) generator) generator ;;
     Ok (generator, generator_degree + m_degree)%nat) (generator, 1%nat) ;;
  assert_ (generator_degree =? NP + 1)%nat ;;;
  generator <- for_up 0 NP (fun i generator =>
     b <- get_be_bit generator (Z.of_nat i + 1) ;;
     set_be_bit generator (Z.of_nat i) b) generator ;;
  set_be_bit generator np false.

(** bose_chaudhuri_hocquenghem_encoder.hh:22-25 slb1 *)
Definition bch_slb1 (buf : list N) (pos : nat) : res N :=
  x <- rd buf pos ;; y <- rd buf (pos + 1) ;;
  Ok (wrap 8 (N.lor (N.shiftl x 1) (N.shiftr y 7))).
(** bose_chaudhuri_hocquenghem_encoder.hh:61-78 operator(): the new content of parity *)
Definition bch_encode (K NP : nat) (generator data parity : list N) (data_len : nat) : res (list N) :=
  assert_ ((0 <? data_len) && (data_len <=? K))%nat ;;;
  let last := ((NP - 1) / 8)%nat in
  parity <- for_up 0 (S last) (fun l parity => wr parity l 0) parity ;;
  for_up 0 data_len (fun i parity =>
    d <- get_be_bit data (Z.of_nat i) ;; p <- get_be_bit parity 0 ;;
    if negb (Bool.eqb d p) then
      parity <- for_up 0 last (fun l parity =>
         g <- rd generator l ;; s <- bch_slb1 parity l ;; wr parity l (N.lxor g s)) parity ;;
      g <- rd generator last ;; x <- rd parity last ;;
      wr parity last (wrap 8 (N.lxor g (N.shiftl x 1)))
    else
      parity <- for_up 0 last (fun l parity => s <- bch_slb1 parity l ;; wr parity l s) parity ;;
      x <- rd parity last ;;
      wr parity last (wrap 8 (N.shiftl x 1))) parity.

(** bose_chaudhuri_hocquenghem_encoder.hh:102-104: while (!(m>>m_degree)) --m_degree; from M down, for m > 0 *)
Fixpoint bchref_degree (m : N) (d : nat) : res nat :=
  if nz (N.shiftr m (N.of_nat d)) then Ok d else match d with O => Undef | S d' => bchref_degree m d' end.
(** bose_chaudhuri_hocquenghem_encoder.hh:93-130 BoseChaudhuriHocquenghemEncoderReference() *)
Definition bchref_generator (G : gf) (NP : nat) (ms : list N) : res (list N) :=
  one <- mkValueI G 1 ;; zero <- mkValueI G 0 ;;
  let generator := one :: repeat zero NP in
  '(generator, generator_degree) <- bch_each ms (fun m '(generator, generator_degree) =>
     assert_ (nz m && (m <? 2 ^ (gf_M G + 1))) ;;;
     m_degree <- bchref_degree m (N.to_nat (gf_M G)) ;;
     assert_ (generator_degree + m_degree <=? NP + 1)%nat ;;;
     generator <- for_down (S generator_degree) 0 (fun i generator =>
        x <- rd generator i ;;
        if negb (nz x) then Ok generator else
        v <- mkValueI G (N.to_nat (N.b2n (N.odd m))) ;;
        generator <- wr generator i v ;;
        for_up 1 (S m_degree) (fun j generator =>
          v <- mkValueI G (N.to_nat (N.b2n (N.odd (N.shiftr m (N.of_nat j))))) ;;
          x <- rd generator (i + j) ;;
          x <- v_add_assign G x v ;;
          wr generator (i + j) x) generator) generator ;;
     Ok (generator, generator_degree + m_degree)%nat) (generator, 1%nat) ;;
  assert_ (generator_degree =? NP + 1)%nat ;;;
  Ok generator.
(** bose_chaudhuri_hocquenghem_encoder.hh:131-148 operator() of the reference encoder *)
Definition bchref_encode (G : gf) (K NP : nat) (generator data parity : list N) (data_len : nat) : res (list N) :=
  assert_ ((0 <? data_len) && (data_len <=? K))%nat ;;;
  parity <- for_up 0 NP (fun i parity => z <- mkValueI G 0 ;; wr parity i z) parity ;;
  for_up 0 data_len (fun i parity =>
    d <- rd data i ;; p <- rd parity 0 ;;
    b <- v_neq G d p ;;
    if b then
      parity <- for_up 1 NP (fun j parity =>
         g <- rd generator (NP - j) ;; p <- rd parity j ;; s <- v_add G g p ;; wr parity (j - 1) s) parity ;;
      g <- rd generator 0 ;;
      wr parity (NP - 1) g
    else
      parity <- for_up 1 NP (fun j parity => p <- rd parity j ;; wr parity (j - 1) p) parity ;;
      z <- mkValueI G 0 ;;
      wr parity (NP - 1) z) parity.

(** bose_chaudhuri_hocquenghem_decoder.hh: the bodies of the two classes differ only in how they read and change the code bits and
    how they shift an erased position.  They are modelled once, over these three operations. *)
Record bch_access := {
  ba_get : list N -> nat -> res N;          (* the ValueType coefficient at a position *)
  ba_add : list N -> Z -> N -> res (list N);(* add a magnitude at a position *)
  ba_shift : N -> nat -> res N              (* add K - data_len to an erased position *)
}.
(** bose_chaudhuri_hocquenghem_decoder.hh:25-35, 112-122 update_syndromes *)
Definition bch_update (A : bch_access) (G : gf) (NR FCR : nat) (poly : list N) (b e : nat) (syn : list (option N)) : res (list (option N)) :=
  for_up b e (fun j syn =>
    coeff <- ba_get A poly j ;;
    root <- mkIndexI G FCR ;; pe <- mkIndexI G 1 ;;
    '(syn, _) <- for_up 0 NR (fun i '(syn, root) =>
       s <- rdu syn i ;;
       x <- fma_ivv G root s coeff ;;
       syn <- wru syn i x ;;
       root <- i_mul_assign G root pe ;;
       Ok (syn, root)) (syn, root) ;;
    Ok syn) syn.
(** bose_chaudhuri_hocquenghem_decoder.hh:37-50, 124-137 compute_syndromes *)
Definition bch_syndromes (A : bch_access) (G : gf) (K NP NR FCR : nat) (data parity : list N) (syn : list (option N)) (data_len : nat) : res (list (option N) * nat) :=
  assert_ ((0 <? data_len) && (data_len <=? K))%nat ;;;
  coeff <- ba_get A data 0 ;;
  syn <- for_up 0 NR (fun i syn => wru syn i coeff) syn ;;
  syn <- bch_update A G NR FCR data 1 data_len syn ;;
  syn <- bch_update A G NR FCR parity 0 NP syn ;;
  nonzero <- for_up 0 NR (fun i c => s <- rdu syn i ;; Ok (if nz s then S c else c)) 0%nat ;;
  Ok (syn, nonzero).
(** bose_chaudhuri_hocquenghem_decoder.hh:55-98, 138-180 operator(): the new data, parity and erasures, and the result *)
Definition bch_decode (A : bch_access) (G : gf) (K NP NR FCR : nat) (imap : list N) (data parity erasures : list N) (erasures_count data_len : nat)
    : res (list N * list N * list N * Z) :=
  assert_ (erasures_count <=? NR)%nat ;;;
  assert_ ((0 <? data_len) && (data_len <=? K))%nat ;;;
  erasures <- (if negb (erasures_count =? 0)%nat && (data_len <? K)%nat then
     for_up 0 erasures_count (fun i erasures =>
       e <- rd erasures i ;;
       k <- ba_shift A e (K - data_len) ;;
       wr erasures i k) erasures
   else Ok erasures) ;;
  '(syn, nonzero) <- bch_syndromes A G K NP NR FCR data parity (uninit N NR) data_len ;;
  if (nonzero =? 0)%nat then Ok (data, parity, erasures, 0%Z) else
  syn <- settled NR syn ;;
  '(count, locations, magnitudes) <- rs_correction G NR FCR imap syn (uninit N NR) (uninit N NR) erasures erasures_count ;;
  if (count <=? 0)%Z then Ok (data, parity, erasures, count) else
  let count := Z.to_nat count in
  bad <- for_up 0 count (fun i bad => l <- rdu locations i ;; Ok (bad || (N.to_nat l <? K - data_len)%nat)) false ;;
  if bad then Ok (data, parity, erasures, (-1)%Z) else
  bad <- for_up 0 count (fun i bad => m <- rdu magnitudes i ;; Ok (bad || (1 <? m))) false ;;
  if bad then Ok (data, parity, erasures, (-1)%Z) else
  '(data, parity) <- for_up 0 count (fun i '(data, parity) =>
     l <- rdu locations i ;;
     m <- rdu magnitudes i ;;
     let idx := (Z.of_N l + Z.of_nat data_len - Z.of_nat K)%Z in
     if (idx <? Z.of_nat data_len)%Z then
       data <- ba_add A data idx m ;; Ok (data, parity)
     else
       parity <- ba_add A parity (idx - Z.of_nat data_len)%Z m ;; Ok (data, parity)) (data, parity) ;;
  corrections <- for_up 0 count (fun i c => m <- rdu magnitudes i ;; Ok (if nz m then S c else c)) 0%nat ;;
  Ok (data, parity, erasures, Z.of_nat corrections).

(** bose_chaudhuri_hocquenghem_decoder.hh:14-99 BoseChaudhuriHocquenghemDecoder: packed bits; ValueType(get_be_bit(poly, j)); xor_be_bit(data, idx, (bool)magnitude);
    erasures[i] += K - data_len on value_type, seen as IndexType by the cast *)
Definition bch_packed (G : gf) : bch_access := {|
  ba_get := fun buf i => b <- get_be_bit buf (Z.of_nat i) ;; mkValueI G (N.to_nat (N.b2n b));
  ba_add := fun buf i m => xor_be_bit buf i (nz m);
  ba_shift := fun e d => Ok (wrap (gf_w G) (e + N.of_nat d)) |}.
(** bose_chaudhuri_hocquenghem_decoder.hh:101-181 BoseChaudhuriHocquenghemDecoderReference: one value per bit *)
Definition bch_reference (G : gf) : bch_access := {|
  ba_get := fun buf i => rd buf i;
  ba_add := fun buf i m => x <- rdZ buf i ;; x <- v_add_assign G x m ;; wrZ buf i x;
  ba_shift := fun e d => mkIndexI G (N.to_nat e + d) |}.
