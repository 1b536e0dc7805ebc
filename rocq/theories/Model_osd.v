(** Model of osd.hh.  Definitions only.
    int8_t values are [Z]; exclusive or and conjunction of int8_t values ([Z.lxor], [Z.land]) stay in the
    range of int8_t, so nothing is wrapped.  Loop indices and array indices are [nat].  The index
    computations (W*j+i, N*j+i, ...) stay below the size of the arrays and are not checked for overflow.
    A value used as the [bool] argument of the bitman.hh functions is true when it is not zero.
    Members keep whatever earlier calls (or nobody) left in them: the model takes their content as an
    argument.  Elements that are read before being written (the entries N..W-1 of the rows of G and of
    codeword, which are multiplied by zero, and unfilled candidates of the list decoder) are taken to be
    arbitrary but fixed values.  The debugging code under if (0) is not modelled. *)
From Verif Require Import Cpp Model_bits Model_gf Model_bch Model_sort.
Local Open Scope nat_scope.

(** conversion of an int8_t to bool *)
Definition tob (x : Z) : bool := negb (x =? 0)%Z.

(** osd.hh:19-27 LinearEncoder::operator().  The second operand of & is an int8_t, the first a bool *)
Definition linear_encode (N K : nat) (codeword message : list BinNums.N) (genmat : list Z) : res (list BinNums.N) :=
  codeword <- for_up 0 N (fun i codeword =>
    m <- get_be_bit message 0 ;; g <- rd genmat i ;;
    set_be_bit codeword (Z.of_nat i) (tob (Z.land (Z.b2z m) g))) codeword ;;
  for_up 1 K (fun j codeword =>
    m <- get_be_bit message (Z.of_nat j) ;;
    if m then for_up 0 N (fun i codeword =>
      g <- rd genmat (N * j + i) ;;
      xor_be_bit codeword (Z.of_nat i) (tob g)) codeword
    else Ok codeword) codeword.

(** osd.hh:35-68 BoseChaudhuriHocquenghemGenerator::poly: the new content of genpoly.  [ms] are the
    elements of the initializer_list (a negative int is rejected like 0). *)
Definition osd_poly (NP : nat) (genpoly : list Z) (ms : list BinNums.N) : res (list Z) :=
  let np := Z.of_nat NP in
  genpoly <- for_up 0 NP (fun i genpoly => wr genpoly i 0%Z) genpoly ;;
  genpoly <- wr genpoly NP 1%Z ;;
  '(genpoly, genpoly_degree) <- bch_each ms (fun m '(genpoly, genpoly_degree) =>
     assert_ (nz m) ;;;
     assert_ (N.odd m) ;;;
     m_degree <- bch_degree m ;;
     assert_ (genpoly_degree + m_degree <=? NP + 1) ;;;
     genpoly <- for_down (S genpoly_degree) 0 (fun i genpoly =>
        x <- rdZ genpoly (np - Z.of_nat i) ;;
        if negb (tob x) then Ok genpoly else
        genpoly <- wrZ genpoly (np - Z.of_nat i) (Z.b2z (N.odd m)) ;;
        for_up 1 (S m_degree) (fun j genpoly =>
          x <- rdZ genpoly (np - (Z.of_nat i + Z.of_nat j)) ;;
          wrZ genpoly (np - (Z.of_nat i + Z.of_nat j)) (Z.lxor x (Z.b2z (N.odd (N.shiftr m (N.of_nat j)))))) genpoly) genpoly ;;
     Ok (genpoly, genpoly_degree + m_degree)) (genpoly, 1) ;;
  assert_ (genpoly_degree =? NP + 1) ;;;
  x <- rd genpoly 0 ;; assert_ (tob x) ;;;
  y <- rd genpoly NP ;; assert_ (tob y) ;;;
  Ok genpoly.

(** osd.hh:82-87 BoseChaudhuriHocquenghemGenerator::matrix, the part under if (systematic); k counts down
    from K-1 to 1 *)
Definition osd_gensys (N K : nat) (genmat : list Z) : res (list Z) :=
  for_down K 1 (fun k genmat =>
    for_up 0 k (fun j genmat =>
      x <- rd genmat (N * j + k) ;;
      if tob x then for_up k N (fun i genmat =>
        a <- rd genmat (N * j + i) ;; b <- rd genmat (N * k + i) ;;
        wr genmat (N * j + i) (Z.lxor a b)) genmat
      else Ok genmat) genmat) genmat.
(** osd.hh:69-96 BoseChaudhuriHocquenghemGenerator::matrix: the new content of genmat *)
Definition osd_matrix (N K : nat) (genmat : list Z) (systematic : bool) (ms : list BinNums.N) : res (list Z) :=
  let NP := N - K in
  genmat <- osd_poly NP genmat ms ;;
  genmat <- for_up (NP + 1) N (fun i genmat => wr genmat i 0%Z) genmat ;;
  genmat <- for_up 1 K (fun j genmat =>
    genmat <- for_up 0 j (fun i genmat => wr genmat (N * j + i) 0%Z) genmat ;;
    genmat <- for_up 0 (NP + 1) (fun i genmat => x <- rd genmat i ;; wr genmat ((N + 1) * j + i) x) genmat ;;
    for_up (j + NP + 1) N (fun i genmat => wr genmat (N * j + i) 0%Z) genmat) genmat ;;
  if systematic then osd_gensys N K genmat else Ok genmat.

(** * the decoders *)

(** osd.hh:102-103, 245-246: W is N rounded up to a multiple of sizeof(size_t) = 8 *)
Definition osd_W (N : nat) : nat := Z.to_nat (Z.land (Z.of_nat N + 8 - 1) (Z.lnot (8 - 1))).

(** osd.hh:116, 127, 129, 131 (and 260, 271, 273, 275): std::swap(a[i], a[j]) *)
Definition osd_swap {A} (a : list A) (i j : nat) : res (list A) :=
  x <- rd a i ;; y <- rd a j ;; a <- wr a i y ;; wr a j x.

(** the value of a loop that may be left by break, [inr] being the state at the break *)
Definition broken {S} (x : S + S) : S := match x with inl s => s | inr s => s end.

(** osd.hh:112-119, 256-263 row_echelon: find pivot in this column *)
Definition osd_pivot (W N K k : nat) (G : list Z) : res (list Z) :=
  x <- for_ret k K (fun j G =>
    g <- rd G (W * j + k) ;;
    if tob g then
      G <- (if negb (j =? k) then for_up k N (fun i G => osd_swap G (W * j + i) (W * k + i)) G else Ok G) ;;
      Ok (inr G)
    else Ok (inl G)) G ;;
  Ok (broken x).

(** osd.hh:120-134, 264-278 row_echelon: keep searching for suitable column for pivot; the state is (G, perm).
    The inner loop is left by break, the outer one when G[W*k+k] is not zero any more. *)
Definition osd_column (W N K k : nat) (s : list Z * list nat) : res (list Z * list nat) :=
  x <- for_ret (k + 1) N (fun j '(G, perm) =>
    g <- rd G (W * k + k) ;;
    if tob g then Ok (inr (G, perm)) else
    y <- for_ret k K (fun h '(G, perm) =>
      g <- rd G (W * h + j) ;;
      if tob g then
        perm <- osd_swap perm k j ;;
        G <- for_up 0 K (fun i G => osd_swap G (W * i + k) (W * i + j)) G ;;
        G <- (if negb (h =? k) then for_up k N (fun i G => osd_swap G (W * h + i) (W * k + i)) G else Ok G) ;;
        Ok (inr (G, perm))
      else Ok (inl (G, perm))) (G, perm) ;;
    Ok (inl (broken y))) s ;;
  Ok (broken x).

(** osd.hh:139-140, 148-149, 283-284, 292-293: G[W*j+i] ^= G[W*k+i] for i from k on *)
Definition osd_addrow (W N k j : nat) (G : list Z) : res (list Z) :=
  for_up k N (fun i G =>
    a <- rd G (W * j + i) ;; b <- rd G (W * k + i) ;; wr G (W * j + i) (Z.lxor a b)) G.

(** osd.hh:109-142, 253-286 row_echelon *)
Definition osd_row_echelon (W N K : nat) (s : list Z * list nat) : res (list Z * list nat) :=
  for_up 0 K (fun k '(G, perm) =>
    G <- osd_pivot W N K k G ;;
    '(G, perm) <- osd_column W N K k (G, perm) ;;
    g <- rd G (W * k + k) ;;
    assert_ (tob g) ;;;
    G <- for_up (k + 1) K (fun j G =>
      x <- rd G (W * j + k) ;; if tob x then osd_addrow W N k j G else Ok G) G ;;
    Ok (G, perm)) s.

(** osd.hh:143-150, 287-294 systematic; k counts down from K-1 to 1 *)
Definition osd_systematic (W N K : nat) (G : list Z) : res (list Z) :=
  for_down K 1 (fun k G =>
    for_up 0 k (fun j G =>
      x <- rd G (W * j + k) ;; if tob x then osd_addrow W N k j G else Ok G) G) G.

(** osd.hh:151-158, 295-302 encode *)
Definition osd_encode (W N K : nat) (G codeword : list Z) : res (list Z) :=
  codeword <- for_up K N (fun i codeword =>
    c <- rd codeword 0 ;; g <- rd G i ;; wr codeword i (Z.land c g)) codeword ;;
  for_up 1 K (fun j codeword =>
    for_up K N (fun i codeword =>
      x <- rd codeword i ;; c <- rd codeword j ;; g <- rd G (W * j + i) ;;
      wr codeword i (Z.lxor x (Z.land c g))) codeword) codeword.

(** osd.hh:159-163, 303-307 flip *)
Definition osd_flip (W : nat) (G : list Z) (j : nat) (codeword : list Z) : res (list Z) :=
  for_up 0 W (fun i codeword =>
    x <- rd codeword i ;; g <- rd G (W * j + i) ;; wr codeword i (Z.lxor x g)) codeword.

(** osd.hh:164-170, 308-314 metric: the products of two int8_t values and 1 - 2 * hard[i] cannot overflow an
    int, the sum is checked *)
Definition osd_metric (W : nat) (hard soft : list Z) : res Z :=
  for_up 0 W (fun i sum =>
    h <- rd hard i ;; s <- rd soft i ;; chk (sum + (1 - 2 * h) * s)) 0%Z.

(** osd.hh:177, 185, 337, 345: std::max<int8_t>(x, -127) *)
Definition osd_clip (x : Z) : Z := Z.max x (-127).

(** the members of a decoder (osd.hh:104-108, 247-252); [om_tmp] is the array inside MergeSort *)
Record osd_members := { om_G : list Z; om_codeword : list Z; om_candidate : list Z; om_softperm : list Z; om_perm : list nat; om_tmp : list (option nat) }.

(** osd.hh:174-190, 334-350 operator(), both decoders: perm, G, softperm and codeword before the search.
    perm holds int16_t values: [require] makes a conversion that does not fit visible.  The comparison
    reads softperm at elements of perm, which are below N. *)
Definition osd_prepare (N K : nat) (o : osd_members) (soft genmat : list Z) : res (list Z * list nat * list Z * list Z) :=
  let W := osd_W N in
  perm <- for_up 0 N (fun i perm => require (Z.of_nat i <=? 32767)%Z ;;; wr perm i i) (om_perm o) ;;
  softperm <- for_up 0 N (fun i softperm => s <- rd soft i ;; wr softperm i (Z.abs (osd_clip s))) (om_softperm o) ;;
  perm <- merge_sort 32 (fun a b => (nth b softperm 0 <? nth a softperm 0)%Z) N (om_tmp o) perm ;;
  G <- for_up 0 K (fun j G =>
    for_up 0 N (fun i G =>
      p <- rd perm i ;; g <- rd genmat (N * j + p) ;; wr G (W * j + i) g) G) (om_G o) ;;
  '(G, perm) <- osd_row_echelon W N K (G, perm) ;;
  G <- osd_systematic W N K G ;;
  softperm <- for_up 0 N (fun i softperm =>
    p <- rd perm i ;; s <- rd soft p ;; wr softperm i (osd_clip s)) softperm ;;
  softperm <- for_up N W (fun i softperm => wr softperm i 0%Z) softperm ;;
  codeword <- for_up 0 K (fun i codeword =>
    s <- rd softperm i ;; wr codeword i (Z.b2z (s <? 0)%Z)) (om_codeword o) ;;
  codeword <- osd_encode W N K G codeword ;;
  Ok (G, perm, softperm, codeword).

(** osd.hh:206-235, 358-387 operator(): the nested loops over a, b, c, d, e, f.  The loop nest of depth [d]
    (at most six, and at most O) with the loop variable of its outermost loop starting at [start]. *)
Fixpoint osd_search {S : Type} (K : nat) (flip : nat -> S -> res S) (update : S -> res S) (d start : nat) (s : S) : res S :=
  match d with
  | O => Ok s
  | Datatypes.S d =>
      for_up start K (fun a s =>
        s <- flip a s ;;
        s <- update s ;;
        s <- osd_search K flip update d (a + 1) s ;;
        flip a s) s
  end.

(** osd.hh:195-205 the lambda update of OrderedStatisticsDecoder; the state is (codeword, (best, next, candidate)) *)
Definition osd_update (W N : nat) (softperm : list Z) (s : list Z * (Z * Z * list Z)) : res (list Z * (Z * Z * list Z)) :=
  let '(codeword, (best, next, candidate)) := s in
  met <- osd_metric W codeword softperm ;;
  if (best <? met)%Z then
    candidate' <- for_up 0 N (fun i candidate => c <- rd codeword i ;; wr candidate i c) candidate ;;
    Ok (codeword, (met, best, candidate'))
  else if (next <? met)%Z then Ok (codeword, (best, met, candidate))
  else Ok (codeword, (best, next, candidate)).

(** osd.hh:172-239 OrderedStatisticsDecoder::operator(): the new content of hard and the returned value *)
Definition osd_decode (N K O : nat) (o : osd_members) (hard : list BinNums.N) (soft genmat : list Z) : res (list BinNums.N * bool) :=
  let W := osd_W N in
  '(G, perm, softperm, codeword) <- osd_prepare N K o soft genmat ;;
  candidate <- for_up 0 N (fun i candidate => c <- rd codeword i ;; wr candidate i c) (om_candidate o) ;;
  best <- osd_metric W codeword softperm ;;
  '(_, (best, next, candidate)) <- osd_search K (fun j '(codeword, x) => codeword <- osd_flip W G j codeword ;; Ok (codeword, x))
     (osd_update W N softperm) (min O 6) 0 (codeword, (best, (-1)%Z, candidate)) ;;
  hard <- for_up 0 N (fun i hard =>
    p <- rd perm i ;; c <- rd candidate i ;; set_be_bit hard (Z.of_nat p) (tob c)) hard ;;
  Ok (hard, negb (best =? next)%Z).

(** osd.hh:315-330 OrderedStatisticsListDecoder::update; the state is (codeword, (candidate, score, cperm)).
    j counts down, so L rounds are enough. *)
Definition osdl_update (W L : nat) (softperm : list Z) (s : list Z * (list Z * list Z * list nat)) : res (list Z * (list Z * list Z * list nat)) :=
  let '(codeword, (candidate, score, cperm)) := s in
  met <- osd_metric W codeword softperm ;;
  sj <- rd score (L - 1) ;;
  if (met <=? sj)%Z then Ok s else
  pos <- rd cperm (L - 1) ;;
  candidate <- for_up 0 W (fun i candidate => c <- rd codeword i ;; wr candidate (pos * W + i) c) candidate ;;
  '(j, score, cperm) <- while_ L
     (fun '(j, score, cperm) => if 0 <? j then (x <- rd score (j - 1) ;; Ok (x <? met)%Z) else Ok false)
     (fun '(j, score, cperm) =>
        x <- rd score (j - 1) ;; score <- wr score j x ;;
        p <- rd cperm (j - 1) ;; cperm <- wr cperm j p ;;
        Ok (j - 1, score, cperm)) (L - 1, score, cperm) ;;
  score <- wr score j met ;;
  cperm <- wr cperm j pos ;;
  Ok (codeword, (candidate, score, cperm)).

(** osd.hh:332-395 OrderedStatisticsListDecoder::operator(): the new content of rank and hard.  [score] and
    [cperm] are the members of these names.  Bit p of the array hard+j*((N+7)/8) is bit 8*j*((N+7)/8)+p of hard. *)
Definition osdl_decode (N K O L : nat) (o : osd_members) (score : list Z) (cperm : list nat) (rank : list Z) (hard : list BinNums.N) (soft genmat : list Z)
    : res (list Z * list BinNums.N) :=
  let W := osd_W N in
  '(G, perm, softperm, codeword) <- osd_prepare N K o soft genmat ;;
  candidate <- for_up 0 W (fun i candidate => c <- rd codeword i ;; wr candidate i c) (om_candidate o) ;;
  met <- osd_metric W codeword softperm ;;
  score <- wr score 0 met ;;
  score <- for_up 1 L (fun i score => wr score i (-1)%Z) score ;;
  cperm <- for_up 0 L (fun i cperm => wr cperm i i) cperm ;;
  '(_, (candidate, score, cperm)) <- osd_search K (fun j '(codeword, x) => codeword <- osd_flip W G j codeword ;; Ok (codeword, x))
     (osdl_update W L softperm) (min O 6) 0 (codeword, (candidate, score, cperm)) ;;
  '(_, rank, hard) <- for_up 0 L (fun j '(r, rank, hard) =>
    r <- (if 0 <? j then (x <- rd score (j - 1) ;; y <- rd score j ;; Ok (if negb (x =? y)%Z then (r + 1)%Z else r)) else Ok r) ;;
    rank <- wr rank j r ;;
    c <- rd cperm j ;;
    hard <- for_up 0 N (fun i hard =>
      p <- rd perm i ;; x <- rd candidate (c * W + i) ;;
      set_be_bit hard (8 * (Z.of_nat j * ((Z.of_nat N + 7) / 8)) + Z.of_nat p)%Z (tob x)) hard ;;
    Ok (r, rank, hard)) (0%Z, rank, hard) ;;
  Ok (rank, hard).
