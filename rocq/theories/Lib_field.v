(** Fields with decidable equality, packed in a record, for use with the tactics [ring] and [field].
    General mathematics, no model of code. *)
From Coq Require Import List Arith Lia Field Ring.
Import ListNotations.

Record fld := mkFld {
  car :> Type;
  f0 : car; f1 : car;
  fadd : car -> car -> car; fmul : car -> car -> car; fsub : car -> car -> car; fopp : car -> car;
  fdiv : car -> car -> car; finv : car -> car;
  fth : field_theory f0 f1 fadd fmul fsub fopp fdiv finv eq;
  fdec : forall x y : car, {x = y} + {x <> y}
}.
Arguments f0 {_}. Arguments f1 {_}. Arguments fadd {_}. Arguments fmul {_}. Arguments fsub {_}. Arguments fopp {_}.
Arguments fdiv {_}. Arguments finv {_}. Arguments fdec {_}.
