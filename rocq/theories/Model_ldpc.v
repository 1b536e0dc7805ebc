(** Model of ldpc_encoder.hh, ldpc_decoder.hh and the portable class of rotate.hh.  Definitions only.

    A table class is the record [table]; its entries are non-negative.  Encoder object: the arrays [pos] and [cnc].
    Decoder object: the arrays [bnl], [msg], [pty], [loc], [wd] and [cnc].  A SIMD vector is represented by its first
    [D] = WORD_SIZE lanes: the remaining SIMD_SIZE - D lanes are never copied out, every primitive used acts lane by
    lane and Rotate moves data only among the first D lanes, so they cannot influence the result.  [std::sort] is the
    parameter [srt].  A zero sized variable length array ([cnt = 0]) is accepted. *)
From Verif Require Import Cpp Model_simd.
Open Scope nat_scope.

(** the static members a table class provides (tests/ldpc_regression_test.cc and the DVB/aicodix tables) *)
Record table := mk_table {
  t_M : nat; t_N : nat; t_K : nat;
  t_max : nat;          (* LINKS_MAX_CN *)
  t_total : nat;        (* LINKS_TOTAL *)
  t_deg : list nat;     (* DEG *)
  t_len : list nat;     (* LEN, zero terminated *)
  t_pos : list nat      (* POS *)
}.
(** ldpc_encoder.hh 14-19, ldpc_decoder.hh 29-38 *)
Definition t_R (T : table) := t_N T - t_K T.
Definition t_q (T : table) := t_R T / t_M T.
Definition t_cnc (T : table) := t_max T - 2.

(** values stored in uint16_t and uint8_t variables *)
Definition u16 (x : nat) : nat := N.to_nat (wrap 16 (N.of_nat x)).
Definition u8 (x : nat) : nat := N.to_nat (wrap 8 (N.of_nat x)).

(** ldpc_encoder.hh 34-36 = ldpc_decoder.hh 228-230: one table entry; uint16_t [pos], uint8_t [cnc].  An entry
    beyond R, for which [M - m] is negative, counts as undefined here *)
Definition ldpc_entry (T : table) (row_ptr bit_pos d : nat) (s : list (option nat) * list nat)
  : res (list (option nat) * list nat) :=
  let '(pos, cnc) := s in
  x <- rd (t_pos T) (row_ptr + d) ;;
  require (0 <? t_q T) ;;;
  require (0 <? t_M T) ;;;
  let n := x mod t_q T in
  let m := x / t_q T in
  require (m <=? t_M T) ;;;
  c <- rd cnc n ;;
  pos <- wru pos (t_cnc T * n + c) (u16 (bit_pos + (t_M T - m) mod t_M T)) ;;
  cnc <- wr cnc n (u8 (c + 1)) ;;
  Ok (pos, cnc).

(** ldpc_encoder.hh 26-41 = ldpc_decoder.hh 220-235; state: g, bit_pos, row_ptr (offset into POS), pos, cnc *)
Definition ldpc_collect (T : table) (pos : list (option nat)) : res (list (option nat) * list nat) :=
  let cnc := repeat 0 (t_q T) in
  '(_, _, _, pos, cnc) <-
    while_ (length (t_len T) + 1)
      (fun s => let '(g, _, _, _, _) := s in l <- rd (t_len T) g ;; Ok (negb (l =? 0)))
      (fun s => let '(g, bit_pos, row_ptr, pos, cnc) := s in
         bit_deg <- rd (t_deg T) g ;;
         l <- rd (t_len T) g ;;
         '(bit_pos, row_ptr, pos, cnc) <-
           for_up 0 l (fun r s => let '(bit_pos, row_ptr, pos, cnc) := s in
             '(pos, cnc) <- for_up 0 bit_deg (fun d => ldpc_entry T row_ptr bit_pos d) (pos, cnc) ;;
             Ok (bit_pos + t_M T, row_ptr + bit_deg, pos, cnc)) (bit_pos, row_ptr, pos, cnc) ;;
         Ok (g + 1, bit_pos, row_ptr, pos, cnc))
      (0, 0, 0, pos, cnc) ;;
  Ok (pos, cnc).

(** ldpc_encoder.hh 44-48 = ldpc_decoder.hh 239-243: [offset] and [shift] of check class [i] *)
Definition ldpc_shifts (T : table) (pos : list (option nat)) (i cnt : nat)
  : res (list (option nat) * list (option nat)) :=
  for_up 0 cnt (fun c s => let '(offset, shift) := s in
    p <- rdu pos (t_cnc T * i + c) ;;
    require (0 <? t_M T) ;;;
    shift <- wru shift c (p mod t_M T) ;;
    sh <- rdu shift c ;;
    offset <- wru offset c (p - sh) ;;
    Ok (offset, shift)) (uninit nat cnt, uninit nat cnt).

(** ldpc_encoder.hh 24-56: constructor *)
Definition ldpc_encoder (T : table) : res (list (option nat) * list nat) :=
  '(pos, cnc) <- ldpc_collect T (uninit nat (t_R T * t_cnc T)) ;;
  pos <- for_up 0 (t_q T) (fun i pos =>
    cnt <- rd cnc i ;;
    '(offset, shift) <- ldpc_shifts T pos i cnt ;;
    '(_, pos) <- for_up 1 (t_M T) (fun j s =>
      for_up 0 cnt (fun c s => let '(shift, pos) := s in
        sh <- rdu shift c ;;
        shift <- wru shift c ((sh + 1) mod t_M T) ;;
        sh <- rdu shift c ;;
        o <- rdu offset c ;;
        pos <- wru pos (t_cnc T * (t_q T * j + i) + c) (u16 (o + sh)) ;;
        Ok (shift, pos)) s) (shift, pos) ;;
    Ok pos) pos ;;
  Ok (pos, cnc).

(** ldpc_encoder.hh 57-68: operator(); int8_t [tmp] *)
Definition ldpc_encode (T : table) (enc : list (option nat) * list nat) (data parity : list Z) : res (list Z) :=
  let '(pos, cnc) := enc in
  '(_, parity) <- for_up 0 (t_M T) (fun j s =>
    for_up 0 (t_q T) (fun i s => let '(tmp, parity) := s in
      cnt <- rd cnc i ;;
      tmp <- for_up 0 cnt (fun c tmp =>
        p <- rdu pos (t_cnc T * (t_q T * j + i) + c) ;;
        x <- rd data p ;;
        Ok (to_s 8 (tmp * x))) tmp ;;
      parity <- wr parity (t_q T * j + i) tmp ;;
      Ok (tmp, parity)) s) (1%Z, parity) ;;
  Ok parity.

(** every lane of a vector has been written *)
Fixpoint all_init {A} (a : list (option A)) : res (list A) :=
  match a with
  | [] => Ok []
  | Some x :: t => l <- all_init t ;; Ok (x :: l)
  | None :: _ => Undef
  end.

(** rotate.hh 19-30 *)
Definition rotate (D : nat) (a : list Z) (s : Z) : res (list Z) :=
  let s := (if s <? 0 then s + Z.of_nat D else s)%Z in
  let t := (Z.of_nat D - s)%Z in
  require (0 <=? s)%Z ;;;
  ret <- for_up 0 (Z.to_nat s) (fun n ret => x <- rdZ a (Z.of_nat n + t) ;; wru ret n x) (uninit Z D) ;;
  ret <- for_up 0 (Z.to_nat t) (fun n ret => x <- rd a n ;; wru ret (n + Z.to_nat s) x) ret ;;
  all_init ret.

(** ldpc_decoder.hh 55-58 *)
Definition ld_eor (a b : list Z) : list Z := vreinterpret_s 8 (veor 8 (vmask 8 a) (vmask 8 b)).
(** ldpc_decoder.hh 59-62 *)
Definition ld_orr (a b : list Z) : list Z := vreinterpret_s 8 (vorr 8 (vmask 8 a) (vmask 8 b)).
(** ldpc_decoder.hh 63-66 *)
Definition ld_other (a b c : list Z) : list Z := vreinterpret_s 8 (vbsl 8 (vceq 8 a b) (vmask 8 c) (vmask 8 b)).
(** ldpc_decoder.hh 67-70 *)
Definition ld_mine (D : nat) (a b : list Z) : list Z := ld_orr (ld_eor a b) (vdup D 127).
(** ldpc_decoder.hh 71-74 *)
Definition ld_selfcorr (a b : list Z) : list Z :=
  vreinterpret_s 8 (vand 8 (vmask 8 b) (vorr 8 (vceqz 8 a) (veor 8 (vcgtz 8 a) (vcltz 8 b)))).

(** the constant part of a decoder object: loc (off, shi) and cnc; ldpc_decoder.hh 51, 53 *)
Record ldpc_const := mk_lc { lc_loc : list (nat * nat); lc_cnc : list nat }.
(** the part that [update] changes: bnl, msg, pty and wd; ldpc_decoder.hh 48-50, 52 *)
Record ldpc_state := mk_ls { ls_bnl : list (list Z); ls_msg : list (list Z); ls_pty : list (list Z); ls_wd : list N }.

Section Decoder.
Variable T : table.
Variable D : nat.       (* WORD_SIZE *)
Variable BETA : Z.
(** ldpc_decoder.hh 35-37 *)
Definition d_W := t_M T / D.
Definition d_PTY := t_R T / D.
Definition d_MSG := t_K T / D.
(** ldpc_decoder.hh 39-40 *)
Definition d_BNL := (t_total T + (D - 1)) / D.
Definition d_LOC := (t_total T - (2 * t_R T - 1) + (D - 1)) / D.

(** ldpc_decoder.hh 86-100 = 126-140: the vector on link [k] of layer [(i, j)]; [lo] is the offset of the pointer
    [lo] in [loc] *)
Definition ldpc_fetch (C : ldpc_const) (msg pty : list (list Z)) (cnt lo i j k : nat) : res (list Z) :=
  if k <? cnt then
    l <- rd (lc_loc C) (lo + k) ;;
    m <- rd msg (fst l) ;;
    rotate D m (- Z.of_nat (snd l))
  else if k =? cnt then rd pty (d_W * i + j)
  else if negb (i =? 0) then rd pty (d_W * (i - 1) + j)
  else if negb (j =? 0) then rd pty (d_W * (t_q T - 1) + j - 1)
  else
    v <- rdZ pty (Z.of_nat d_PTY - 1) ;;
    v <- rotate D v 1 ;;
    wr v 0 127%Z.

(** ldpc_decoder.hh 76-111 *)
Definition ldpc_bad (C : ldpc_const) (msg pty : list (list Z)) : res bool :=
  x <- for_ret 0 (t_q T) (fun i lo =>
    cnt <- rd (lc_cnc C) i ;;
    '(r, lo) <- for_up 0 d_W (fun j s => let '(r, lo) := s in
      cnv <- for_up 0 (cnt + 2) (fun k cnv =>
        tmp <- ldpc_fetch C msg pty cnt lo i j k ;; Ok (vsign 8 cnv tmp)) (vdup D 1%Z) ;;
      Ok (vorr 8 r (vclez 8 cnv), lo + cnt)) (vmask 8 (vzero D), lo) ;;
    y <- for_ret 0 D (fun n (_ : unit) =>
      x <- rd r n ;; if (x =? 0)%Z then Ok (inl tt) else Ok (inr true)) tt ;;
    match y with inl _ => Ok (inl lo) | inr b => Ok (inr b) end) 0 ;;
  match x with inl _ => Ok false | inr b => Ok b end.

(** ldpc_decoder.hh 120-158: first pass of a layer; state: min0, min1, signs, inps, mags *)
Definition ldpc_pass1 (C : ldpc_const) (bnl msg pty : list (list Z)) (cnt bl lo i j : nat)
  : res (list Z * list Z * list Z * list (option (list Z)) * list (option (list Z))) :=
  for_up 0 (cnt + 2) (fun k s => let '(min0, min1, signs, inps, mags) := s in
    tmp <- ldpc_fetch C msg pty cnt lo i j k ;;
    b <- rd bnl (bl + k) ;;
    let inp := vqsub 8 tmp b in
    let mag := vqabs 8 inp in
    let mag := if (BETA =? 0)%Z then mag
               else vsigned 8 (vqsub_u 8 (vunsigned 8 mag) (vunsigned 8 (vdup D BETA))) in
    let min1 := vmin min1 (vmax min0 mag) in
    let min0 := vmin min0 mag in
    let signs := ld_eor signs inp in
    inps <- wru inps k inp ;;
    mags <- wru mags k mag ;;
    Ok (min0, min1, signs, inps, mags))
  (vdup D 127, vdup D 127, vdup D 127, uninit _ (cnt + 2), uninit _ (cnt + 2))%Z.

(** ldpc_decoder.hh 163-167: the new message on a link, [b] the old one *)
Definition ldpc_out (min0 min1 signs inp mag b : list Z) : list Z :=
  let out := vsign 8 (ld_other mag min0 min1) (ld_mine D signs inp) in
  let out := vclamp out (-31) 31 in
  ld_selfcorr b out.

(** ldpc_decoder.hh 159-190: second pass of a layer *)
Definition ldpc_pass2 (C : ldpc_const) (wd : list N) (min0 min1 signs : list Z) (inps mags : list (option (list Z)))
    (cnt bl lo i j : nat) (s : list (list Z) * list (list Z) * list (list Z))
  : res (list (list Z) * list (list Z) * list (list Z)) :=
  for_up 0 (cnt + 2) (fun k s => let '(bnl, msg, pty) := s in
    mag <- rdu mags k ;;
    inp <- rdu inps k ;;
    b <- rd bnl (bl + k) ;;
    let out := ldpc_out min0 min1 signs inp mag b in
    let tmp := vqadd 8 inp out in
    if k <? cnt then
      w <- rd wd (d_W * i + j) ;;
      require (k <? 32) ;;;
      if N.testbit w (N.of_nat k) then Ok (bnl, msg, pty)
      else
        bnl <- wr bnl (bl + k) out ;;
        l <- rd (lc_loc C) (lo + k) ;;
        tmp <- rotate D tmp (Z.of_nat (snd l)) ;;
        msg <- wr msg (fst l) tmp ;;
        Ok (bnl, msg, pty)
    else if k =? cnt then
      bnl <- wr bnl (bl + k) out ;;
      pty <- wr pty (d_W * i + j) tmp ;;
      Ok (bnl, msg, pty)
    else
      bnl <- wr bnl (bl + k) out ;;
      if negb (i =? 0) then pty <- wr pty (d_W * (i - 1) + j) tmp ;; Ok (bnl, msg, pty)
      else if negb (j =? 0) then pty <- wr pty (d_W * (t_q T - 1) + j - 1) tmp ;; Ok (bnl, msg, pty)
      else
        v <- rdZ pty (Z.of_nat d_PTY - 1) ;;
        x <- rdZ v (Z.of_nat D - 1) ;;
        tmp <- wr tmp 0 x ;;
        tmp <- rotate D tmp (-1) ;;
        pty <- wrZ pty (Z.of_nat d_PTY - 1) tmp ;;
        Ok (bnl, msg, pty)) s.

(** ldpc_decoder.hh 198-203: rotate the write disable bits [first .. last] of [cur] *)
Definition ldpc_ror (first last : nat) (cur : N) : res N :=
  let count := last - first + 1 in
  require (count <? 31) ;;;
  require (N.shiftl (N.shiftl 1 (N.of_nat count) - 1) (N.of_nat first) <? 2 ^ 31)%N ;;;
  let mask := N.shiftl (N.shiftl 1 (N.of_nat count) - 1) (N.of_nat first) in
  let tmp := N.land cur mask in
  let ror := N.lor (N.shiftr tmp 1) (wrap 32 (N.shiftl tmp (N.of_nat (count - 1)))) in
  Ok (N.lor (N.ldiff cur mask) (N.land ror mask)).

(** ldpc_decoder.hh 191-208: rotation of the write disable masks of a layer; state: first, wd *)
Definition ldpc_rotate_wd (C : ldpc_const) (cnt lo i j : nat) (wd : list N) : res (list N) :=
  w <- rd wd (d_W * i + j) ;;
  if (w =? 0)%N then Ok wd
  else
    '(_, wd) <- for_up 1 cnt (fun c s => let '(first, wd) := s in
      a <- rd (lc_loc C) (lo + first) ;;
      b <- rd (lc_loc C) (lo + c) ;;
      if negb (fst a =? fst b) || (c =? cnt - 1) then
        let last := if c =? cnt - 1 then c else c - 1 in
        wd <- (if negb (last =? first) then
                 cur <- rd wd (d_W * i + j) ;;
                 x <- ldpc_ror first last cur ;;
                 wr wd (d_W * i + j) x
               else Ok wd) ;;
        Ok (c, wd)
      else Ok (first, wd)) (0, wd) ;;
    Ok wd.

(** ldpc_decoder.hh 120-210: one layer [(i, j)] *)
Definition ldpc_layer (C : ldpc_const) (cnt i j : nat) (x : nat * nat * ldpc_state) : res (nat * nat * ldpc_state) :=
  let '(bl, lo, s) := x in
  '(min0, min1, signs, inps, mags) <- ldpc_pass1 C (ls_bnl s) (ls_msg s) (ls_pty s) cnt bl lo i j ;;
  '(bnl, msg, pty) <- ldpc_pass2 C (ls_wd s) min0 min1 signs inps mags cnt bl lo i j
                        (ls_bnl s, ls_msg s, ls_pty s) ;;
  wd <- ldpc_rotate_wd C cnt lo i j (ls_wd s) ;;
  Ok (bl + (cnt + 2), lo + cnt, mk_ls bnl msg pty wd).

(** ldpc_decoder.hh 112-215 *)
Definition ldpc_update (C : ldpc_const) (s : ldpc_state) : res ldpc_state :=
  '(_, _, s) <- for_up 0 (t_q T) (fun i x =>
    cnt <- rd (lc_cnc C) i ;;
    for_up 0 d_W (fun j => ldpc_layer C cnt i j) x) (0, 0, s) ;;
  Ok s.

(** ldpc_decoder.hh 217-260: constructor; [srt] is the [std::sort] by [off], applied to [lo .. lo + cnt).  Gives
    [loc], [cnc] and the initial [wd] *)
Definition ldpc_decoder (srt : list (nat * nat) -> list (nat * nat)) : res (ldpc_const * list N) :=
  '(pos, cnc) <- ldpc_collect T (uninit nat (t_q T * t_cnc T)) ;;
  '(lo, loc, wd) <- for_up 0 (t_q T) (fun i s => let '(lo, loc, wd) := s in
    cnt <- rd cnc i ;;
    '(offset, shift) <- ldpc_shifts T pos i cnt ;;
    '(lo, loc, wd, _) <- for_up 0 d_W (fun j s => let '(lo, loc, wd, shift) := s in
      require (0 <? D) ;;;
      '(loc, shift) <- for_up 0 cnt (fun c s => let '(loc, shift) := s in
        o <- rdu offset c ;;
        sh <- rdu shift c ;;
        loc <- wr loc (lo + c) (u16 (o / D + sh mod d_W), u16 (sh / d_W)) ;;
        shift <- wru shift c ((sh + 1) mod t_M T) ;;
        Ok (loc, shift)) (loc, shift) ;;
      require (lo + cnt <=? length loc) ;;;
      let loc := firstn lo loc ++ srt (firstn cnt (skipn lo loc)) ++ skipn (lo + cnt) loc in
      wd <- wr wd (d_W * i + j) 0%N ;;
      wd <- for_up 0 (cnt - 1) (fun c wd =>
        a <- rd loc (lo + c) ;;
        b <- rd loc (lo + (c + 1)) ;;
        if fst a =? fst b then
          require (c <? 31) ;;;
          w <- rd wd (d_W * i + j) ;;
          wr wd (d_W * i + j) (N.lor w (N.shiftl 1 (N.of_nat c)))
        else Ok wd) wd ;;
      Ok (lo + cnt, loc, wd, shift)) (lo, loc, wd, shift) ;;
    Ok (lo, loc, wd)) (0, repeat (0, 0) d_LOC, repeat 0%N d_PTY) ;;
  Ok (mk_lc loc cnc, wd).

(** ldpc_decoder.hh 273-274: [while (bad() && --trials >= 0) update();] *)
Fixpoint ldpc_iterate (fuel : nat) (C : ldpc_const) (s : ldpc_state) (trials : Z) : res (ldpc_state * Z) :=
  match fuel with
  | O => Fuel
  | S f =>
      b <- ldpc_bad C (ls_msg s) (ls_pty s) ;;
      if b then
        t <- chk (trials - 1) ;;
        if (0 <=? t)%Z then (s <- ldpc_update C s ;; ldpc_iterate f C s t) else Ok (s, t)
      else Ok (s, trials)
  end.

(** ldpc_decoder.hh 265-272: copying in; 275-282: copying out *)
Definition ldpc_load (rows : nat) (src : nat -> nat -> nat -> nat) (from : list Z) (vec : list (list Z))
  : res (list (list Z)) :=
  for_up 0 rows (fun i vec => for_up 0 d_W (fun j vec => for_up 0 D (fun n vec =>
    v <- rd vec (d_W * i + j) ;;
    x <- rd from (src i j n) ;;
    v <- wr v n x ;;
    wr vec (d_W * i + j) v) vec) vec) vec.
Definition ldpc_store (rows : nat) (dst : nat -> nat -> nat -> nat) (vec : list (list Z)) (to : list Z)
  : res (list Z) :=
  for_up 0 rows (fun i to => for_up 0 d_W (fun j to => for_up 0 D (fun n to =>
    v <- rd vec (d_W * i + j) ;;
    x <- rd v n ;;
    wr to (dst i j n) x) to) to) to.
Definition d_msg_at (i j n : nat) := t_M T * i + d_W * n + j.
Definition d_pty_at (i j n : nat) := t_q T * (d_W * n + j) + i.

(** ldpc_decoder.hh 261-284: operator(); returns the object, the buffers and the result.  The fuel is the number of
    iterations the loop can make at most; running out of it would be visible as [Fuel] *)
Definition ldpc_decode (C : ldpc_const) (s : ldpc_state) (message parity : list Z) (trials : Z)
  : res (ldpc_state * list Z * list Z * Z) :=
  bnl <- for_up 0 d_BNL (fun i bnl => wr bnl i (vzero D)) (ls_bnl s) ;;
  msg <- ldpc_load (t_K T / t_M T) d_msg_at message (ls_msg s) ;;
  pty <- ldpc_load (t_q T) d_pty_at parity (ls_pty s) ;;
  '(s, trials) <- ldpc_iterate (S (Z.to_nat trials)) C (mk_ls bnl msg pty (ls_wd s)) trials ;;
  message <- ldpc_store (t_K T / t_M T) d_msg_at (ls_msg s) message ;;
  parity <- ldpc_store (t_q T) d_pty_at (ls_pty s) parity ;;
  Ok (s, message, parity, trials).
End Decoder.
