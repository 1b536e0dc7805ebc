(** Model of polar_helper.hh, polar_encoder.hh and polar_decoder.hh.  Definitions only.
    TYPE is int8_t ([ops8]) or SIMD<int8_t, WIDTH> ([ops8v]); the floating point instances are in Model_polar_float.v.
    Array arguments are lists, a pointer into an array is an offset; distinct arguments do not overlap.
    [int] variables are [nat]: [require] excludes the shift counts for which [1 << level] is undefined. *)
From Verif Require Import Cpp Model_simd.
Local Open Scope nat_scope.

(** polar_helper.hh: the operations of [PolarHelper<TYPE>] used by encoder and decoder *)
Record polar_ops (A : Type) := mk_ops {
  p_one : A;
  p_signum : A -> A;
  p_mul : A -> A -> A;
  p_prod : A -> A -> A;
  p_madd : A -> A -> A -> A }.
Arguments p_one {A}. Arguments p_signum {A}. Arguments p_mul {A}. Arguments p_prod {A}. Arguments p_madd {A}.

(** polar_helper.hh:168-171 *)
Definition signum8 (v : Z) : Z := (b2z (0 <? v) - b2z (v <? 0))%Z.
(** polar_helper.hh:177-180 *)
Definition qabs8 (a : Z) : Z := to_s 8 (Z.abs (Z.max a (-127))).
(** polar_helper.hh:189-194; the conversion of an int to int8_t is modulo 256 *)
Definition qmul8 (a b : Z) : Z := to_s 8 (a * b).
(** polar_helper.hh:195-198 *)
Definition prod8 (a b : Z) : Z := to_s 8 (signum8 a * signum8 b * Z.min (qabs8 a) (qabs8 b)).
(** polar_helper.hh:199-202 *)
Definition madd8 (a b c : Z) : Z := to_s 8 (Z.min (Z.max (to_s 16 (a * b + c)) (-127)) 127).
(** polar_helper.hh:156-203 PolarHelper<int8_t> *)
Definition ops8 : polar_ops Z := mk_ops Z 1%Z signum8 qmul8 prod8 madd8.

(** polar_helper.hh:104-154 PolarHelper<SIMD<int8_t, WIDTH>>, the branch without __ARM_NEON *)
Definition ops8v (WIDTH : nat) : polar_ops (list Z) := mk_ops (list Z)
  (vdup WIDTH 1%Z)
  vsignum
  (fun a b => vsign 8 a b)
  (fun a b => vsign 8 (vmin (vqabs 8 a) (vqabs 8 b)) (vsign 8 (vsignum a) b))
  (fun a b c => vmax (vqadd 8 (vsign 8 (vmax b (vdup WIDTH (-127)%Z)) a) c) (vdup WIDTH (-127)%Z)).
(** polar_helper.hh:104-154, the branch with __ARM_NEON *)
Definition ops8v_neon (WIDTH : nat) : polar_ops (list Z) := mk_ops (list Z)
  (vdup WIDTH 1%Z)
  vsignum
  (fun a b => vmul 8 a b)
  (fun a b => vmul 8 (vmul 8 (vsignum a) (vsignum b)) (vmin (vqabs 8 a) (vqabs 8 b)))
  (fun a b c => vmax (vqadd 8 (vmul 8 a (vmax b (vdup WIDTH (-127)%Z))) c) (vdup WIDTH (-127)%Z)).

(** polar_encoder.hh:17-20 = 42-45 = polar_parity_aided.hh:18-21: get(bits, idx) *)
Definition polar_get (bits : list N) (idx : nat) : res bool :=
  w <- rd bits (idx / 32) ;;
  Ok (N.testbit w (N.of_nat (idx mod 32))).

Section Type_.
Context {A : Type} (P : polar_ops A).

(** polar_encoder.hh:31-34 = 56-59 = 66-69 = polar_decoder.hh:25-28 = polar_parity_aided.hh:55-58: the stages
    h = 2, 4, ... of the transform, on [length] elements starting at [off].  The fuel exceeds the number of rounds. *)
Definition polar_stages (off length : nat) (out : list A) : res (list A) :=
  '(_, out) <- while_ (S length) (fun '(h, _) => Ok (h <? length))
    (fun '(h, out) =>
       out <- for_step 0 length (2 * h) (fun i out =>
         for_up i (i + h) (fun j out =>
           a <- rd out (off + j) ;;
           b <- rd out (off + (j + h)) ;;
           wr out (off + j) (p_mul P a b)) out) out ;;
       Ok (h * 2, out)) (2, out) ;;
  Ok out.

(** polar_encoder.hh:25-30 = 50-55: the message expanded and the first stage; state: position in the message, codeword *)
Definition polar_expand (message : list A) (frozen : list N) (length : nat) (codeword : list A) : res (list A) :=
  '(_, codeword) <- for_step 0 length 2 (fun i '(pos, codeword) =>
    f0 <- polar_get frozen i ;;
    '(msg0, pos) <- (if (f0 : bool) then Ok (p_one P, pos) else (x <- rd message pos ;; Ok (x, pos + 1))) ;;
    f1 <- polar_get frozen (i + 1) ;;
    '(msg1, pos) <- (if (f1 : bool) then Ok (p_one P, pos) else (x <- rd message pos ;; Ok (x, pos + 1))) ;;
    codeword <- wr codeword i (p_mul P msg0 msg1) ;;
    codeword <- wr codeword (i + 1) msg1 ;;
    Ok (pos, codeword)) (0, codeword) ;;
  Ok codeword.

(** polar_encoder.hh:22-35 PolarEncoder::operator() *)
Definition polar_encode (codeword message : list A) (frozen : list N) (level : nat) : res (list A) :=
  require (level <=? 30) ;;;
  let length := 2 ^ level in
  codeword <- polar_expand message frozen length codeword ;;
  polar_stages 0 length codeword.

(** polar_encoder.hh:60-65: frozen positions set to one, and the first stage again *)
Definition polar_mask (frozen : list N) (length : nat) (codeword : list A) : res (list A) :=
  for_step 0 length 2 (fun i codeword =>
    f0 <- polar_get frozen i ;;
    msg0 <- (if (f0 : bool) then Ok (p_one P) else rd codeword i) ;;
    f1 <- polar_get frozen (i + 1) ;;
    msg1 <- (if (f1 : bool) then Ok (p_one P) else rd codeword (i + 1)) ;;
    codeword <- wr codeword i (p_mul P msg0 msg1) ;;
    wr codeword (i + 1) msg1) codeword.

(** polar_encoder.hh:47-70 PolarSysEnc::operator() *)
Definition polar_sysenc (codeword message : list A) (frozen : list N) (level : nat) : res (list A) :=
  require (level <=? 30) ;;;
  let length := 2 ^ level in
  codeword <- polar_expand message frozen length codeword ;;
  codeword <- polar_stages 0 length codeword ;;
  codeword <- polar_mask frozen length codeword ;;
  polar_stages 0 length codeword.

(** What the decoder works on: the message buffer, the position [*message] points to, and the members [hard], [soft]
    (polar_decoder.hh:248-249).  Members are not initialised by a constructor: their contents are arbitrary. *)
Record polar_state := mk_ps { ps_msg : list A; ps_pos : nat; ps_hard : list A; ps_soft : list A }.

(** polar_decoder.hh:19-29 PolarNode::trans(out + opos, inp + ipos) *)
Definition polar_trans (N : nat) (out : list A) (opos : nat) (inp : list A) (ipos : nat) : res (list A) :=
  out <- for_step 0 N 2 (fun i out =>
    a <- rd inp (ipos + i) ;;
    b <- rd inp (ipos + (i + 1)) ;;
    out <- wr out (opos + i) (p_mul P a b) ;;
    wr out (opos + (i + 1)) b) out ;;
  polar_stages opos N out.
(** polar_decoder.hh:30-34, 48-51 PolarNode<TYPE, M>::rate0(hard + hoff) *)
Definition polar_rate0 (M hoff : nat) (s : polar_state) : res polar_state :=
  hard <- for_up 0 (2 ^ M) (fun i hard => wr hard (hoff + i) (p_one P)) (ps_hard s) ;;
  Ok (mk_ps (ps_msg s) (ps_pos s) hard (ps_soft s)).
(** polar_decoder.hh:35-41, 52-56 PolarNode<TYPE, M>::rate1(message, hard + hoff, soft) *)
Definition polar_rate1 (M hoff : nat) (s : polar_state) : res polar_state :=
  match M with
  | O =>
      x <- rd (ps_soft s) 1 ;;
      hard <- wr (ps_hard s) hoff (p_signum P x) ;;
      h <- rd hard hoff ;;
      msg <- wr (ps_msg s) (ps_pos s) h ;;
      Ok (mk_ps msg (ps_pos s + 1) hard (ps_soft s))
  | S _ =>
      let N := 2 ^ M in
      hard <- for_up 0 N (fun i hard =>
        x <- rd (ps_soft s) (i + N) ;; wr hard (hoff + i) (p_signum P x)) (ps_hard s) ;;
      msg <- polar_trans N (ps_msg s) (ps_pos s) hard hoff ;;
      Ok (mk_ps msg (ps_pos s + N) hard (ps_soft s))
  end.

(** polar_decoder.hh:66-67 = 85-86 = 114-115 = 143-144 = 172-173 = 201-202 = 228: left half *)
Definition polar_left (N : nat) (s : polar_state) : res polar_state :=
  soft <- for_up 0 (N / 2) (fun i soft =>
    a <- rd soft (i + N) ;;
    b <- rd soft (i + N / 2 + N) ;;
    wr soft (i + N / 2) (p_prod P a b)) (ps_soft s) ;;
  Ok (mk_ps (ps_msg s) (ps_pos s) (ps_hard s) soft).
(** polar_decoder.hh:69-70 = 93-94 = 122-123 = 151-152 = 180-181 = 209-210 = 233: right half *)
Definition polar_right (N hoff : nat) (s : polar_state) : res polar_state :=
  soft <- for_up 0 (N / 2) (fun i soft =>
    h <- rd (ps_hard s) (hoff + i) ;;
    a <- rd soft (i + N) ;;
    b <- rd soft (i + N / 2 + N) ;;
    wr soft (i + N / 2) (p_madd P h a b)) (ps_soft s) ;;
  Ok (mk_ps (ps_msg s) (ps_pos s) (ps_hard s) soft).
(** polar_decoder.hh:72-73 = 101-102 = 130-131 = 159-160 = 188-189 = 217-218 = 238: combine the halves *)
Definition polar_join (N hoff : nat) (s : polar_state) : res polar_state :=
  hard <- for_up 0 (N / 2) (fun i hard =>
    a <- rd hard (hoff + i) ;;
    b <- rd hard (hoff + (i + N / 2)) ;;
    wr hard (hoff + i) (p_mul P a b)) (ps_hard s) ;;
  Ok (mk_ps (ps_msg s) (ps_pos s) hard (ps_soft s)).

(** polar_decoder.hh:106-240 PolarTree<TYPE, M>::decode for M = 5, 4, 3, 2 (the same text four times) and 1;
    here [frozen] is a value.  [mask] is ((1<<(1<<(M-1)))-1). *)
Fixpoint polar_tree_small (M hoff : nat) (frozen : N) (s : polar_state) {struct M} : res polar_state :=
  match M with
  | O => Undef
  | S m =>
      let N := 2 ^ M in
      match m with
      | O =>
          s <- polar_left 2 s ;;
          s <- (if (N.land frozen 1 =? 0)%N then polar_rate1 0 hoff s else polar_rate0 0 hoff s) ;;
          s <- polar_right 2 hoff s ;;
          s <- (if (N.shiftr frozen 1 =? 0)%N then polar_rate1 0 (hoff + 1) s else polar_rate0 0 (hoff + 1) s) ;;
          polar_join 2 hoff s
      | S _ =>
          let mask := (N.shiftl 1 (N.of_nat (2 ^ m)) - 1)%N in
          s <- polar_left N s ;;
          let lo := N.land frozen mask in
          s <- (if (lo =? mask)%N then polar_rate0 m hoff s
                else if (lo =? 0)%N then polar_rate1 m hoff s
                else polar_tree_small m hoff lo s) ;;
          s <- polar_right N hoff s ;;
          let hi := N.shiftr frozen (N.of_nat (N / 2)) in
          s <- (if (hi =? mask)%N then polar_rate0 m (hoff + N / 2) s
                else if (hi =? 0)%N then polar_rate1 m (hoff + N / 2) s
                else polar_tree_small m (hoff + N / 2) hi s) ;;
          polar_join N hoff s
      end
  end.

(** polar_decoder.hh:77-104 PolarTree<TYPE, 6>::decode; [frozen + fo] is the pointer argument *)
Definition polar_tree6 (hoff : nat) (frozen : list N) (fo : nat) (s : polar_state) : res polar_state :=
  let N := 64 in
  s <- polar_left N s ;;
  f0 <- rd frozen (fo + 0) ;;
  s <- (if (f0 =? 4294967295)%N then polar_rate0 5 hoff s
        else if (f0 =? 0)%N then polar_rate1 5 hoff s
        else polar_tree_small 5 hoff f0 s) ;;
  s <- polar_right N hoff s ;;
  f1 <- rd frozen (fo + 1) ;;
  s <- (if (f1 =? 4294967295)%N then polar_rate0 5 (hoff + N / 2) s
        else if (f1 =? 0)%N then polar_rate1 5 (hoff + N / 2) s
        else polar_tree_small 5 (hoff + N / 2) f1 s) ;;
  polar_join N hoff s.

(** polar_decoder.hh:59-74 PolarTree<TYPE, M>::decode for M = d + 6 > 6 *)
Fixpoint polar_tree (d hoff : nat) (frozen : list N) (fo : nat) (s : polar_state) {struct d} : res polar_state :=
  match d with
  | O => polar_tree6 hoff frozen fo s
  | S d' =>
      let N := 2 ^ (d + 6) in
      s <- polar_left N s ;;
      s <- polar_tree d' hoff frozen fo s ;;
      s <- polar_right N hoff s ;;
      s <- polar_tree d' (hoff + N / 2) frozen (fo + N / 2 / 32) s ;;
      polar_join N hoff s
  end.

(** polar_decoder.hh:242-278 PolarDecoder<TYPE, MAX_M>; gives the members and the message buffer *)
Definition polar_decode (MAX_M : nat) (soft hard : list A) (message codeword : list A) (frozen : list N) (level : nat)
  : res (list A * list A * list A) :=
  assert_ (level <=? MAX_M) ;;;
  require (level <=? 30) ;;;
  let length := 2 ^ level in
  soft <- for_up 0 length (fun i soft => x <- rd codeword i ;; wr soft (length + i) x) soft ;;
  let s := mk_ps message 0 hard soft in
  s <- (if level =? 5 then (f <- rd frozen 0 ;; polar_tree_small 5 0 f s)
        else if (6 <=? level) && (level <=? 20) then polar_tree (level - 6) 0 frozen 0 s
        else Abort) ;;
  Ok (ps_soft s, ps_hard s, ps_msg s).
End Type_.
Arguments polar_state : clear implicits.
