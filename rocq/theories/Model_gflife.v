(** Model of the lives of GaloisField objects.  Definitions only.  The static pointers LOG and EXP of one instance of the template are shared by all its objects;
    a state is what they point to, [None] is nullptr (both are set and cleared together). *)
From Verif Require Import Cpp Model_gf.
Local Open Scope N_scope.

Definition statics := option (table * table).
(** galois_field.hh:107-120 Tables() (run by the constructor of GaloisField, 318) *)
Definition gf_construct (w M POLY : N) (cur : statics) : res statics := t <- tables_ctor w M POLY cur ;; Ok (Some t).
(** galois_field.hh:121-127 ~Tables().  The two assertions are one, as the pointers are null together. *)
Definition gf_destroy (cur : statics) : res statics := assert_ (match cur with Some _ => true | None => false end) ;;; Ok None.

(** what a program does with the objects: [Use f] evaluates an expression over the operators of galois_field.hh, which see only the static pointers *)
Inductive gf_event := New | Delete | Use (f : gf -> res N).
Definition gf_seen (w M POLY : N) (cur : statics) : gf := {| gf_w := w; gf_M := M; gf_POLY := POLY; gf_T := cur |}.
Fixpoint gf_run (w M POLY : N) (h : list gf_event) (cur : statics) : res (list N * statics) :=
  match h with
  | [] => Ok ([], cur)
  | New :: h => cur <- gf_construct w M POLY cur ;; gf_run w M POLY h cur
  | Delete :: h => cur <- gf_destroy cur ;; gf_run w M POLY h cur
  | Use f :: h => v <- f (gf_seen w M POLY cur) ;; '(vs, cur) <- gf_run w M POLY h cur ;; Ok (v :: vs, cur)
  end.
