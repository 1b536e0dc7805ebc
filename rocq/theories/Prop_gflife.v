(** Property C80: galois_field.hh, the lives of the field objects. *)
From Coq Require Import ZifyBool ZifyNat ZifyN.
From Verif Require Import Cpp Model_gf Model_gflife Spec_gf Lib_orbit Lib_gf2lin Lib_gf2poly Lib_gf Lib_field Proof_gf Proof_gfref Prop_gf.
Local Open Scope N_scope.

(** the number of objects after each step of a history is zero or one: no second object while one lives, none destroyed twice *)
Fixpoint one_at_a_time (alive : bool) (h : list gf_event) : Prop :=
  match h with
  | [] => True
  | New :: h => alive = false /\ one_at_a_time true h
  | Delete :: h => alive = true /\ one_at_a_time false h
  | Use _ :: h => one_at_a_time alive h
  end.
(** the values a program gets which uses the one field object [G] for the whole time it is allowed to, and the operators without tables at other times *)
Fixpoint values (G G0 : gf) (alive : bool) (h : list gf_event) : res (list N) :=
  match h with
  | [] => Ok []
  | New :: h => values G G0 true h
  | Delete :: h => values G G0 false h
  | Use f :: h => v <- f (if alive then G else G0) ;; vs <- values G G0 alive h ;; Ok (v :: vs)
  end.
(** the field without an object *)
Definition no_object (w M POLY : N) : gf := {| gf_w := w; gf_M := M; gf_POLY := POLY; gf_T := None |}.

Lemma run_alive w M POLY t : tables_ctor w M POLY None = Ok t -> forall h alive, one_at_a_time alive h ->
  exists alive', gf_run w M POLY h (if alive then Some t else None) = (vs <- values (gf_seen w M POLY (Some t)) (no_object w M POLY) alive h ;; Ok (vs, if alive' : bool then Some t else None)).
Proof.
  intros E. induction h as [|[| |f] h IH]; intros alive; cbn [one_at_a_time gf_run values].
  - intros _. exists alive. reflexivity.
  - intros (-> & H). cbn match. unfold gf_construct. rewrite E. cbn [bind]. exact (IH true H).
  - intros (-> & H). cbn match. unfold gf_destroy. cbn [assert_ bind]. exact (IH false H).
  - intros H. destruct (IH alive H) as (al' & R). exists al'.
    replace (gf_seen w M POLY (if alive then Some t else None)) with (if alive then gf_seen w M POLY (Some t) else no_object w M POLY) by (destruct alive; reflexivity).
    destruct (f _) as [v| | |]; cbn [bind]; try reflexivity. rewrite R. destruct (values _ _ alive h); reflexivity.
Qed.

(** Whatever was constructed and destroyed before: while an object lives, every expression has the value it has with the first object *)
Theorem C80_every_life_is_the_same : forall w M POLY G, gf_create w M POLY = Ok G ->
  forall h, one_at_a_time false h ->
  (forall vs, values G (no_object w M POLY) false h = Ok vs -> exists cur, gf_run w M POLY h None = Ok (vs, cur)) /\
  (forall vs cur, gf_run w M POLY h None = Ok (vs, cur) -> values G (no_object w M POLY) false h = Ok vs).
Proof.
  intros w M POLY G HC h H. unfold gf_create in HC. destruct (tables_ctor w M POLY None) as [t| | |] eqn:E; try discriminate. injection HC as <-.
  destruct (run_alive w M POLY t E h false H) as (al & R). cbn match in R. rewrite R. change {| gf_w := w; gf_M := M; gf_POLY := POLY; gf_T := Some t |} with (gf_seen w M POLY (Some t)).
  split.
  - intros vs ->. cbn [bind]. eauto.
  - intros vs cur. destruct (values _ _ _ h) as [vs'| | |]; cbn [bind]; try discriminate. intros X. injection X as <- _. reflexivity.
Qed.
Print Assumptions C80_every_life_is_the_same.

(** A second object of the same type while one lives ends the program, whatever the (non-failing) history before; destroying none does not get further either *)
Theorem C80_only_one_at_a_time : forall w M POLY h vs cur, gf_run w M POLY h None = Ok (vs, cur) -> one_at_a_time false h.
Proof.
  intros w M POLY. assert (G : forall h cur vs cur', gf_run w M POLY h cur = Ok (vs, cur') -> one_at_a_time (match cur with Some _ => true | None => false end) h).
  { induction h as [|[| |f] h IH]; intros cur vs cur'; cbn [one_at_a_time gf_run].
    - auto.
    - unfold gf_construct. destruct cur as [t|].
      + unfold tables_ctor. cbn [assert_ bind]. discriminate.
      + destruct (tables_ctor w M POLY None) as [t| | |]; cbn [bind]; try discriminate. intros H. split; [reflexivity|]. exact (IH (Some t) _ _ H).
    - unfold gf_destroy. destruct cur as [t|]; cbn [assert_ bind]; [|discriminate]. intros H. split; [reflexivity|]. exact (IH None _ _ H).
    - intros H. apply bind_Ok_inv in H. destruct H as (v & _ & H). apply bind_Ok_inv in H. destruct H as ((vs' & c') & H & _). exact (IH cur _ _ H). }
  intros h vs cur H. exact (G h None vs cur H).
Qed.
Print Assumptions C80_only_one_at_a_time.
Theorem C80_second_object_aborts : forall w M POLY t, gf_construct w M POLY (Some t) = Abort /\ gf_destroy None = Abort.
Proof. intros. split; reflexivity. Qed.
Print Assumptions C80_second_object_aborts.

(** Without an object: what needs the tables stops at an assertion, the other operators give the values they give with an object *)
Theorem C80_without_object : forall w M POLY G, 1 <= M -> M <= w -> has_degree POLY M -> gf_create w M POLY = Ok G ->
  forall a b, a < 2 ^ M -> b < 2 ^ M ->
  let G0 := no_object w M POLY in
  v_add G0 a b = v_add G a b /\ v_sub G0 a b = v_sub G a b /\ v_eq G0 a b = v_eq G a b /\ v_neq G0 a b = v_neq G a b /\ i_mul G0 a b = i_mul G a b /\ i_div G0 a b = i_div G a b /\ i_rcp G0 a = i_rcp G a /\
  gf_index G0 a = Abort /\ gf_value G0 a = Abort /\ v_rcp G0 a = Abort /\
  (a <> 0 -> b <> 0 -> v_mul G0 a b = Abort /\ v_div G0 a b = Abort /\ (forall c, c < 2 ^ M -> fma_vvv G0 a b c = Abort)) /\
  (a = 0 \/ b = 0 -> v_mul G0 a b = Ok 0 /\ (forall c, c < 2 ^ M -> fma_vvv G0 a b c = Ok c)).
Proof.
  intros w M POLY G HM Hw HP HC a b Ha Hb G0. destruct (create_ok w M POLY G HM Hw HP HC) as (OK & Ew & EM & EP).
  assert (V : forall x, x < 2 ^ M -> okV G0 x = Ok tt). { intros x Hx. unfold okV, gf_N, gf_Q. cbn [gf_M G0 no_object]. replace (x <=? 2 ^ M - 1) with true by lia. reflexivity. }
  assert (IX : forall x, gf_index G0 x = Abort). { intros x. unfold gf_index. unfold okV, assert_. destruct (x <=? gf_N G0); cbn [bind]; [|reflexivity]. destruct (nz x); reflexivity. }
  assert (E : forall x y, v_add G0 x y = v_add G x y). { intros. unfold v_add, okV, mkValue, gf_N, gf_Q. rewrite EM. reflexivity. }
  split; [apply E|]. split; [apply E|]. split; [unfold v_eq, okV, gf_N, gf_Q; rewrite EM; reflexivity|]. split; [unfold v_neq, okV, gf_N, gf_Q; rewrite EM; reflexivity|].
  split; [unfold i_mul, okI, mkIndex, gf_N, gf_Q; rewrite EM, Ew; reflexivity|]. split; [unfold i_div, okI, mkIndex, gf_N, gf_Q; rewrite EM, Ew; reflexivity|]. split; [unfold i_rcp, okI, mkIndex, gf_N, gf_Q; rewrite EM; reflexivity|].
  split; [apply IX|]. split; [unfold gf_value, okI, assert_; destruct (a <? gf_N G0); reflexivity|].
  split; [unfold v_rcp; rewrite V by exact Ha; cbn [bind]; rewrite IX; destruct (nz a); reflexivity|]. split.
  - intros A B. assert (NA : nz a = true) by (unfold nz; lia). assert (NB : nz b = true) by (unfold nz; lia).
    split; [unfold v_mul; rewrite !V by assumption; cbn [bind]; rewrite NA, NB, IX; reflexivity|]. split; [unfold v_div; rewrite !V by assumption; cbn [bind]; rewrite NA, NB, IX; reflexivity|].
    intros c Hc. unfold fma_vvv. rewrite !V by assumption. cbn [bind]. rewrite NA, NB, IX. reflexivity.
  - intros AB. assert (Z : (negb (nz a) || negb (nz b))%bool = true) by (unfold nz; lia).
    split; [unfold v_mul; rewrite !V by assumption; cbn [bind]; rewrite Z; unfold mkValue, gf_N, gf_Q; cbn [gf_M G0 no_object]; replace (0 <=? 2 ^ M - 1) with true by lia; reflexivity|]. intros c Hc. unfold fma_vvv. rewrite !V by assumption. cbn [bind]. rewrite Z. reflexivity.
Qed.
Print Assumptions C80_without_object.

(** GF(16): an object, its destruction, a second life *)
Example C80_nonvacuous : exists G, gf_create 8 4 19 = Ok G /\
  let h := [Use (fun G => v_add G 7 11); New; Use (fun G => v_mul G 7 11); Delete; Use (fun G => v_mul G 0 11); New; Use (fun G => v_mul G 7 11); Use (fun G => v_rcp G 7)] in
  one_at_a_time false h /\ values G (no_object 8 4 19) false h = Ok [12; 4; 0; 4; 6] /\ (exists cur, gf_run 8 4 19 h None = Ok ([12; 4; 0; 4; 6], cur)) /\
  gf_run 8 4 19 [New; Delete; Use (fun G => v_mul G 7 11)] None = Abort /\ gf_run 8 4 19 [New; Delete; New; New] None = Abort.
Proof.
  eexists. split; [vm_compute; reflexivity|]. cbv zeta. split; [repeat split|]. split; [vm_compute; reflexivity|]. split; [eexists; vm_compute; reflexivity|]. split; vm_compute; reflexivity.
Qed.
