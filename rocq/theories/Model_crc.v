(** Model of crc.hh.  Definitions only. *)
From Verif Require Import Cpp.
Local Open Scope N_scope.

(** crc.hh:11-16: the members of CRC<TYPE>; TYPE is an unsigned type with [crc_w] bits. *)
Record crc_obj := { crc_w : N; crc_lut : list (option N); crc_poly : N; crc_reg : N }.

Definition crc_set (o : crc_obj) (v : N) : crc_obj :=
  {| crc_w := crc_w o; crc_lut := crc_lut o; crc_poly := crc_poly o; crc_reg := v |}.

(** crc.hh:17-21 update.  [tmp] is a TYPE; the product of (tmp & 1) and poly is below 2^w. *)
Definition crc_update (w poly prev : N) (data : bool) : N :=
  let tmp := wrap w (N.lxor prev (N.b2n data)) in
  wrap w (N.lxor (N.shiftr prev 1) (N.land tmp 1 * poly)).

(** crc.hh:23-31 constructor: fills lut[0..255]. *)
Definition crc_new (w poly crc : N) : res crc_obj :=
  lut <- for_up 0 256
           (fun j lut =>
              let tmp := wrap w (N.of_nat j) in
              tmp <- for_down 9 1 (fun _ tmp => Ok (crc_update w poly tmp false)) tmp ;;
              wru lut j tmp)
           (uninit N 256) ;;
  Ok {| crc_w := w; crc_lut := lut; crc_poly := poly; crc_reg := crc |}.

(** crc.hh:32-35 *)
Definition crc_reset (o : crc_obj) (v : N) : crc_obj := crc_set o v.
(** crc.hh:36-39 *)
Definition crc_get (o : crc_obj) : N := crc_reg o.
(** crc.hh:40-43 operator()(bool) *)
Definition crc_bit (o : crc_obj) (data : bool) : crc_obj :=
  crc_set o (crc_update (crc_w o) (crc_poly o) (crc_reg o) data).

(** crc.hh:44-48 operator()(uint8_t), and crc.hh:78-82 the specialisation for uint8_t, which
    indexes the table with crc ^ data directly. *)
Definition crc_byte (o : crc_obj) (data : N) : res crc_obj :=
  if crc_w o =? 8 then
    x <- rdu (crc_lut o) (N.to_nat (N.lxor (crc_reg o) data)) ;;
    Ok (crc_set o x)
  else
    let tmp := wrap (crc_w o) (N.lxor (crc_reg o) data) in
    x <- rdu (crc_lut o) (N.to_nat (N.land tmp 255)) ;;
    Ok (crc_set o (wrap (crc_w o) (N.lxor (N.shiftr (crc_reg o) 8) x))).

(** crc.hh:50-55 *)
Definition crc_u16 (o : crc_obj) (data : N) : res crc_obj :=
  o <- crc_byte o (N.land data 255) ;;
  crc_byte o (N.land (N.shiftr data 8) 255).
(** crc.hh:56-63 *)
Definition crc_u32 (o : crc_obj) (data : N) : res crc_obj :=
  o <- crc_byte o (N.land data 255) ;;
  o <- crc_byte o (N.land (N.shiftr data 8) 255) ;;
  o <- crc_byte o (N.land (N.shiftr data 16) 255) ;;
  crc_byte o (N.land (N.shiftr data 24) 255).
(** crc.hh:64-75 *)
Definition crc_u64 (o : crc_obj) (data : N) : res crc_obj :=
  o <- crc_byte o (N.land data 255) ;;
  o <- crc_byte o (N.land (N.shiftr data 8) 255) ;;
  o <- crc_byte o (N.land (N.shiftr data 16) 255) ;;
  o <- crc_byte o (N.land (N.shiftr data 24) 255) ;;
  o <- crc_byte o (N.land (N.shiftr data 32) 255) ;;
  o <- crc_byte o (N.land (N.shiftr data 40) 255) ;;
  o <- crc_byte o (N.land (N.shiftr data 48) 255) ;;
  crc_byte o (N.land (N.shiftr data 56) 255).

(** One call of operator(): the overload is chosen by the argument type. *)
Inductive crc_in := InBit (b : bool) | In8 (v : N) | In16 (v : N) | In32 (v : N) | In64 (v : N).
Definition crc_feed (o : crc_obj) (x : crc_in) : res crc_obj :=
  match x with
  | InBit b => Ok (crc_bit o b)
  | In8 v => crc_byte o v
  | In16 v => crc_u16 o v
  | In32 v => crc_u32 o v
  | In64 v => crc_u64 o v
  end.
Fixpoint crc_run (o : crc_obj) (l : list crc_in) : res crc_obj :=
  match l with
  | [] => Ok o
  | x :: l' => o' <- crc_feed o x ;; crc_run o' l'
  end.

(** Construct with a polynomial and start value, feed everything, read the register. *)
Definition crc_of (w poly start : N) (l : list crc_in) : res N :=
  o <- crc_new w poly start ;; o <- crc_run o l ;; Ok (crc_get o).
