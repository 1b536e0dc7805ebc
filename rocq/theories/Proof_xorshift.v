(** Proofs about xorshift.hh: exact periods. *)
From Coq Require Import ZifyBool ZifyNat ZifyN Znumtheory.
From Verif Require Import Cpp Model_xorshift Spec_xorshift Lib_orbit Lib_prime Lib_gf2lin Lib_gf2poly.
Local Open Scope N_scope.

Lemma linear_shl w k : linear (fun x => shl w x k).
Proof. unfold shl, wrap. apply (linear_comp (fun y => y mod 2 ^ w)); [apply linear_mod|apply linear_shiftl]. Qed.
Lemma linear_shr k : linear (fun x => shr x k).
Proof. apply linear_shiftr. Qed.

Lemma lxor_lt w a b : a < 2 ^ w -> b < 2 ^ w -> N.lxor a b < 2 ^ w.
Proof.
  intros Ha Hb. apply lt_pow2_testbit. intros i Hi.
  rewrite N.lxor_spec, !(testbit_high w) by assumption. reflexivity.
Qed.
Lemma shl_lt w x k : shl w x k < 2 ^ w.
Proof. apply wrap_lt. Qed.
Lemma shr_lt w x k : x < 2 ^ w -> shr x k < 2 ^ w.
Proof.
  intros Ha. apply lt_pow2_testbit. intros i Hi. unfold shr.
  rewrite N.shiftr_spec', (testbit_high w) by (assumption || lia). reflexivity.
Qed.

(** ** xs32, xs64 *)
Definition l32 : list N := [3; 5; 17; 257; 65537].
Definition l64 : list N := l32 ++ [641; 6700417].
Definition l128 : list N := l64 ++ [274177; 67280421310721].
Definition l160 : list N := [3; 5; 5; 11; 17; 31; 41; 257; 61681; 65537; 414721; 4278255361; 44479210368001].

Lemma primes_small l : forallb is_prime l = true -> Forall (fun q => prime (Z.of_N q)) l.
Proof. rewrite forallb_forall. intros H. apply Forall_forall. intros x Hx. apply is_prime_ok, H, Hx. Qed.

Lemma p_big1 : prime (Z.of_N 67280421310721).
Proof. apply (pock_ok _ 2998279 3); vm_compute; reflexivity. Qed.
Lemma p_big2 : prime (Z.of_N 44479210368001).
Proof. apply (pock_ok _ 6096383 3); vm_compute; reflexivity. Qed.
Lemma p_big3 : prime (Z.of_N 4278255361).
Proof. apply (pock_ok _ 65537 3); vm_compute; reflexivity. Qed.

Lemma l32_prime : Forall (fun q => prime (Z.of_N q)) l32.
Proof. apply primes_small. vm_compute. reflexivity. Qed.
Lemma l64_prime : Forall (fun q => prime (Z.of_N q)) l64.
Proof. apply primes_small. vm_compute. reflexivity. Qed.
Lemma l128_prime : Forall (fun q => prime (Z.of_N q)) l128.
Proof.
  apply Forall_app. split; [exact l64_prime|]. constructor; [|constructor; [exact p_big1|constructor]].
  apply is_prime_ok. vm_compute. reflexivity.
Qed.
Lemma l160_prime : Forall (fun q => prime (Z.of_N q)) l160.
Proof.
  change l160 with ([3; 5; 5; 11; 17; 31; 41; 257; 61681; 65537; 414721] ++ [4278255361; 44479210368001]).
  apply Forall_app. split; [apply primes_small; vm_compute; reflexivity|].
  constructor; [exact p_big3|]. constructor; [exact p_big2|constructor].
Qed.

Lemma xs32_linear : linear xs32.
Proof.
  unfold xs32. cbv zeta.
  apply (linear_comp (fun y => N.lxor y (shl 32 y 5))).
  { apply linear_lxor; [apply linear_id|apply linear_shl]. }
  apply (linear_comp (fun y => N.lxor y (shr y 17))).
  { apply linear_lxor; [apply linear_id|apply linear_shr]. }
  apply linear_lxor; [apply linear_id|apply linear_shl].
Qed.
Lemma xs64_linear : linear xs64.
Proof.
  unfold xs64. cbv zeta.
  apply (linear_comp (fun y => N.lxor y (shl 64 y 17))).
  { apply linear_lxor; [apply linear_id|apply linear_shl]. }
  apply (linear_comp (fun y => N.lxor y (shr y 7))).
  { apply linear_lxor; [apply linear_id|apply linear_shr]. }
  apply linear_lxor; [apply linear_id|apply linear_shl].
Qed.
Lemma xs32_lt x : x < 2 ^ 32 -> xs32 x < 2 ^ 32.
Proof. intros H. unfold xs32. cbv zeta. repeat first [apply lxor_lt|apply shl_lt|apply shr_lt|exact H]. Qed.
Lemma xs64_lt x : x < 2 ^ 64 -> xs64 x < 2 ^ 64.
Proof. intros H. unfold xs64. cbv zeta. repeat first [apply lxor_lt|apply shl_lt|apply shr_lt|exact H]. Qed.

Definition m32 : N := 4299080257.
Lemma check32 : poly_check xs32 32 m32 l32 1 = true.
Proof. vm_compute. reflexivity. Qed.
Definition m64 : N := 18536486914334208513.
Lemma check64 : poly_check xs64 64 m64 l64 1 = true.
Proof. vm_compute. reflexivity. Qed.

Lemma full_period_ok f (n : nat) m l :
  linear f -> (forall x, x < 2 ^ N.of_nat n -> f x < 2 ^ N.of_nat n) ->
  Forall (fun q => prime (Z.of_N q)) l -> prod l = 2 ^ N.of_nat n - 1 ->
  poly_check f n m l 1 = true -> 0 < N.of_nat n -> full_period (N.of_nat n) f.
Proof.
  intros Hf Hr Hl Hp Hc Hn s Hs.
  assert (N2 : 2 <= 2 ^ N.of_nat n) by (change 2 with (2 ^ 1) at 1; apply N.pow_le_mono_r; lia).
  set (P := 2 ^ N.of_nat n - 1) in *.
  destruct (poly_period f n m l 1 Hf Hl Hc) as (E & M). rewrite Hp in *.
  assert (R : forall x, 0 < x < 2 ^ N.of_nat n -> N.iter P f x = x -> forall k, 0 < N.iter k f x < 2 ^ N.of_nat n).
  { intros x Hx Ex k. split.
    - apply N.neq_0_lt_0. apply (linear_nonzero f x P); auto; lia.
    - apply (iter_inv (fun x => x < 2 ^ N.of_nat n)); [exact Hr|lia]. }
  assert (C : forall y, 0 < y < 2 ^ N.of_nat n -> exists k, k < P /\ N.iter k f 1 = y).
  { intros y Hy. apply orbit_covers; auto; [|lia]. intros k. pose proof (R 1 ltac:(lia) E k). lia. }
  assert (E' : forall y, 0 < y < 2 ^ N.of_nat n -> N.iter P f y = y).
  { intros y Hy. destruct (C y Hy) as (k & Hk & <-). rewrite <- iter_plus, N.add_comm, iter_plus, E. reflexivity. }
  assert (M' : forall y, 0 < y < 2 ^ N.of_nat n -> forall k, 0 < k < P -> N.iter k f y <> y).
  { intros y Hy k Hk Hky. destruct (C y Hy) as (j & Hj & <-).
    apply (M k Hk). rewrite <- iter_plus in Hky.
    assert (X : N.iter (P - j) f (N.iter (k + j) f 1) = N.iter (P - j) f (N.iter j f 1)) by congruence.
    rewrite <- !iter_plus in X. replace (P - j + j) with P in X by lia. rewrite E in X.
    replace (P - j + (k + j)) with (k + P) in X by lia. rewrite iter_plus, E in X. exact X. }
  split; [apply E'; exact Hs|]. split; [apply M'; exact Hs|].
  split; [apply R; auto|].
  intros y Hy. apply orbit_covers; auto; [|lia]. intros k. pose proof (R s Hs (E' s Hs) k). lia.
Qed.

Lemma xs32_period : full_period 32 xs32.
Proof. apply (full_period_ok xs32 32 m32 l32 xs32_linear xs32_lt l32_prime); [vm_compute; reflexivity|exact check32|reflexivity]. Qed.
Lemma xs64_period : full_period 64 xs64.
Proof. apply (full_period_ok xs64 64 m64 l64 xs64_linear xs64_lt l64_prime); [vm_compute; reflexivity|exact check64|reflexivity]. Qed.

(** Bijection on all words *)
Lemma bijection n f : 0 < n -> linear f -> (forall x, x < 2 ^ n -> f x < 2 ^ n) -> full_period n f ->
  forall y, y < 2 ^ n -> exists x, x < 2 ^ n /\ f x = y /\ forall x', x' < 2 ^ n -> f x' = y -> x' = x.
Proof.
  intros Hn Hf Hr H y Hy.
  assert (N2 : 2 <= 2 ^ n) by (change 2 with (2 ^ 1) at 1; apply N.pow_le_mono_r; lia).
  assert (B : forall a, a < 2 ^ n -> N.iter (2 ^ n - 1 - 1) f (f a) = a).
  { intros a Ha. rewrite <- iter_succ_r. replace (N.succ (2 ^ n - 1 - 1)) with (2 ^ n - 1) by lia.
    destruct (N.eq_dec a 0) as [->|].
    - generalize (2 ^ n - 1). intros m. induction m as [|m IH] using N.peano_ind; [reflexivity|].
      rewrite N.iter_succ, IH. apply linear_0, Hf.
    - apply H. lia. }
  exists (N.iter (2 ^ n - 1 - 1) f y). split; [|split].
  - apply (iter_inv (fun x => x < 2 ^ n)); assumption.
  - rewrite <- N.iter_succ, iter_succ_r. apply B. exact Hy.
  - intros x' Hx' <-. symmetry. apply B. exact Hx'.
Qed.

(** ** Packing words into one number *)
Definition cat (a b : N) : N := N.lxor a (N.shiftl b 32).
Definition low32 (v : N) : N := v mod 2 ^ 32.
Definition high32 (v : N) : N := N.shiftr v 32.

Lemma linear_cat f g : linear f -> linear g -> linear (fun x => cat (f x) (g x)).
Proof.
  intros Hf Hg. unfold cat. apply linear_lxor; [exact Hf|].
  apply (linear_comp (fun y => N.shiftl y 32)); [apply linear_shiftl|exact Hg].
Qed.

Lemma low_cat a b : a < 2 ^ 32 -> low32 (cat a b) = a.
Proof.
  intros Ha. apply N.bits_inj. intros i. unfold low32, cat. destruct (N.lt_ge_cases i 32) as [L|L].
  - rewrite N.mod_pow2_bits_low, N.lxor_spec, N.shiftl_spec_low by assumption. apply xorb_false_r.
  - rewrite N.mod_pow2_bits_high by assumption. symmetry. apply (testbit_high 32); assumption.
Qed.
Lemma high_cat a b : a < 2 ^ 32 -> high32 (cat a b) = b.
Proof.
  intros Ha. apply N.bits_inj. intros i. unfold high32, cat.
  rewrite N.shiftr_spec', N.lxor_spec, N.shiftl_spec_high' by lia.
  rewrite (testbit_high 32 a) by (assumption || lia). rewrite xorb_false_l. f_equal. lia.
Qed.
Lemma cat_low_high v : cat (low32 v) (high32 v) = v.
Proof.
  apply N.bits_inj. intros i. unfold low32, high32, cat. rewrite N.lxor_spec.
  destruct (N.lt_ge_cases i 32) as [L|L].
  - rewrite N.mod_pow2_bits_low, N.shiftl_spec_low by assumption. apply xorb_false_r.
  - rewrite N.mod_pow2_bits_high, N.shiftl_spec_high', N.shiftr_spec' by assumption.
    rewrite xorb_false_l. f_equal. lia.
Qed.
Lemma cat_lt a b n : a < 2 ^ 32 -> b < 2 ^ n -> cat a b < 2 ^ (n + 32).
Proof.
  intros Ha Hb. apply lxor_lt.
  - apply N.lt_le_trans with (2 ^ 32); [exact Ha|]. apply N.pow_le_mono_r; lia.
  - rewrite N.shiftl_mul_pow2, N.pow_add_r. apply N.mul_lt_mono_pos_r; [apply N.neq_0_lt_0, N.pow_nonzero; discriminate|exact Hb].
Qed.
Lemma low32_lt v : low32 v < 2 ^ 32.
Proof. apply N.mod_lt. discriminate. Qed.
Lemma high32_lt v n : v < 2 ^ (n + 32) -> high32 v < 2 ^ n.
Proof.
  intros H. unfold high32. rewrite N.shiftr_div_pow2. apply N.div_lt_upper_bound; [discriminate|].
  rewrite <- N.pow_add_r, N.add_comm. exact H.
Qed.
Lemma linear_low f : linear f -> linear (fun x => low32 (f x)).
Proof. intros H. apply (linear_comp (fun y => y mod 2 ^ 32)); [apply linear_mod|exact H]. Qed.
Lemma linear_high f : linear f -> linear (fun x => high32 (f x)).
Proof. intros H. apply (linear_comp (fun y => N.shiftr y 32)); [apply linear_shiftr|exact H]. Qed.
Lemma linear_shl' w k f : linear f -> linear (fun x => shl w (f x) k).
Proof. intros H. apply (linear_comp (fun y => shl w y k)); [apply linear_shl|exact H]. Qed.
Lemma linear_shr' k f : linear f -> linear (fun x => shr (f x) k).
Proof. intros H. apply (linear_comp (fun y => shr y k)); [apply linear_shr|exact H]. Qed.

Ltac lin := repeat first [ apply linear_id | apply linear_cat | apply linear_lxor | apply linear_low
                         | apply linear_high | apply linear_shl' | apply linear_shr' ].

(** ** Xorshift128 *)
Definition xs128_ok (s : xs128) : Prop :=
  x1_x s < 2 ^ 32 /\ x1_y s < 2 ^ 32 /\ x1_z s < 2 ^ 32 /\ x1_w s < 2 ^ 32.
Definition xs128_zero : xs128 := {| x1_x := 0; x1_y := 0; x1_z := 0; x1_w := 0 |}.
Definition pk128 (s : xs128) : N := cat (x1_x s) (cat (x1_y s) (cat (x1_z s) (x1_w s))).
Definition up128 (v : N) : xs128 :=
  {| x1_x := low32 v; x1_y := low32 (high32 v); x1_z := low32 (high32 (high32 v));
     x1_w := high32 (high32 (high32 v)) |}.
Definition F128 (v : N) : N := pk128 (fst (xs128_next (up128 v))).

Lemma up_pk128 s : xs128_ok s -> up128 (pk128 s) = s.
Proof.
  intros (A & B & C & D). destruct s as [x y z w]. unfold up128, pk128. cbn [x1_x x1_y x1_z x1_w] in *.
  rewrite !high_cat, !low_cat by assumption. reflexivity.
Qed.
Lemma pk_up128 v : pk128 (up128 v) = v.
Proof. unfold up128, pk128. cbn [x1_x x1_y x1_z x1_w]. rewrite !cat_low_high. reflexivity. Qed.
Lemma pk128_lt s : xs128_ok s -> pk128 s < 2 ^ 128.
Proof.
  intros (A & B & C & D). unfold pk128. apply (cat_lt _ _ 96); [exact A|].
  apply (cat_lt _ _ 64); [exact B|]. apply (cat_lt _ _ 32); assumption.
Qed.
Lemma up128_ok v : v < 2 ^ 128 -> xs128_ok (up128 v).
Proof.
  intros H. unfold xs128_ok, up128. cbn [x1_x x1_y x1_z x1_w]. repeat split; try apply low32_lt.
  apply high32_lt, high32_lt, high32_lt. exact H.
Qed.
Lemma xs128_next_ok s : xs128_ok s -> xs128_ok (fst (xs128_next s)).
Proof.
  intros (A & B & C & D). unfold xs128_next. cbv zeta. cbn [fst]. unfold xs128_ok. cbn [x1_x x1_y x1_z x1_w].
  repeat split; auto. repeat first [apply lxor_lt|apply shl_lt|apply shr_lt|assumption].
Qed.
Opaque cat low32 high32 shl shr N.lxor.
Lemma F128_linear : linear F128.
Proof.
  unfold F128, pk128, xs128_next, up128. cbv zeta. cbn [fst x1_x x1_y x1_z x1_w]. lin.
Qed.
Transparent cat low32 high32 shl shr N.lxor.
Lemma F128_lt x : x < 2 ^ 128 -> F128 x < 2 ^ 128.
Proof. intros H. apply pk128_lt, xs128_next_ok, up128_ok, H. Qed.
Definition m128 : N := 340282367000252274136119470900022902785.
Lemma check128 : poly_check F128 128 m128 l128 1 = true.
Proof. vm_compute. reflexivity. Qed.
Lemma F128_period : full_period 128 F128.
Proof. apply (full_period_ok F128 128 m128 l128 F128_linear F128_lt l128_prime); [vm_compute; reflexivity|exact check128|reflexivity]. Qed.

(** transport a full period along packing *)
Section Transport.
Context {S : Type} (ok : S -> Prop) (zero : S) (step : S -> S) (n : N) (pk : S -> N) (up : N -> S) (F : N -> N).
Hypothesis up_pk : forall s, ok s -> up (pk s) = s.
Hypothesis pk_up : forall v, v < 2 ^ n -> pk (up v) = v.
Hypothesis pk_lt : forall s, ok s -> pk s < 2 ^ n.
Hypothesis up_ok : forall v, v < 2 ^ n -> ok (up v).
Hypothesis step_ok : forall s, ok s -> ok (step s).
Hypothesis FE : forall v, F v = pk (step (up v)).
Hypothesis pk_zero : pk zero = 0.
Hypothesis zero_ok : ok zero.
Hypothesis HF : full_period n F.

Lemma iter_ok k s : ok s -> ok (N.iter k step s).
Proof. apply iter_inv. exact step_ok. Qed.

Lemma pk_iter k s : ok s -> pk (N.iter k step s) = N.iter k F (pk s).
Proof.
  intros Hs. induction k as [|k IH] using N.peano_ind; [reflexivity|].
  rewrite !N.iter_succ, <- IH, FE, up_pk by (apply iter_ok; exact Hs). reflexivity.
Qed.

Lemma pk_inj s t : ok s -> ok t -> pk s = pk t -> s = t.
Proof. intros Hs Ht E. rewrite <- (up_pk s Hs), <- (up_pk t Ht), E. reflexivity. Qed.

Lemma pk_pos s : ok s -> s <> zero -> 0 < pk s < 2 ^ n.
Proof.
  intros Hs Hz. split; [|apply pk_lt; exact Hs]. apply N.neq_0_lt_0. intros E. apply Hz.
  apply pk_inj; auto. rewrite pk_zero. exact E.
Qed.

Lemma transport s : ok s -> s <> zero ->
  N.iter (2 ^ n - 1) step s = s /\
  (forall k, 0 < k < 2 ^ n - 1 -> N.iter k step s <> s) /\
  (forall k, ok (N.iter k step s) /\ N.iter k step s <> zero) /\
  (forall t, ok t -> t <> zero -> exists k, k < 2 ^ n - 1 /\ N.iter k step s = t).
Proof.
  intros Hs Hz. destruct (HF (pk s) (pk_pos s Hs Hz)) as (A & B & C & D).
  split; [|split; [|split]].
  - apply pk_inj; auto using iter_ok. rewrite pk_iter by exact Hs. exact A.
  - intros k Hk E. apply (B k Hk). rewrite <- pk_iter by exact Hs. congruence.
  - intros k. split; [apply iter_ok; exact Hs|]. intros E. pose proof (C k) as P.
    rewrite <- pk_iter, E, pk_zero in P by exact Hs. lia.
  - intros t Ht Htz. destruct (D (pk t) (pk_pos t Ht Htz)) as (k & Hk & E). exists k. split; [exact Hk|].
    apply pk_inj; auto using iter_ok. rewrite pk_iter by exact Hs. exact E.
Qed.
End Transport.

Definition xs128_step (s : xs128) : xs128 := fst (xs128_next s).

Lemma xs128_period s : xs128_ok s -> s <> xs128_zero ->
  N.iter (2 ^ 128 - 1) xs128_step s = s /\
  (forall k, 0 < k < 2 ^ 128 - 1 -> N.iter k xs128_step s <> s) /\
  (forall k, xs128_ok (N.iter k xs128_step s) /\ N.iter k xs128_step s <> xs128_zero) /\
  (forall t, xs128_ok t -> t <> xs128_zero -> exists k, k < 2 ^ 128 - 1 /\ N.iter k xs128_step s = t).
Proof.
  apply (transport xs128_ok xs128_zero xs128_step 128 pk128 up128 F128).
  - exact up_pk128.
  - intros v _. apply pk_up128.
  - exact pk128_lt.
  - exact up128_ok.
  - exact xs128_next_ok.
  - reflexivity.
  - reflexivity.
  - repeat split.
  - exact F128_period.
Qed.

(** ** Xorwow *)
Record ww5 := { w5_x : N; w5_y : N; w5_z : N; w5_w : N; w5_v : N }.
Definition ww5_of (s : xorwow) : ww5 :=
  {| w5_x := ww_x s; w5_y := ww_y s; w5_z := ww_z s; w5_w := ww_w s; w5_v := ww_v s |}.
Definition ww5_step (s : ww5) : ww5 :=
  ww5_of (fst (xorwow_next {| ww_x := w5_x s; ww_y := w5_y s; ww_z := w5_z s; ww_w := w5_w s; ww_v := w5_v s; ww_d := 0 |})).
Definition ww5_ok (s : ww5) : Prop :=
  w5_x s < 2 ^ 32 /\ w5_y s < 2 ^ 32 /\ w5_z s < 2 ^ 32 /\ w5_w s < 2 ^ 32 /\ w5_v s < 2 ^ 32.
Definition ww5_zero : ww5 := {| w5_x := 0; w5_y := 0; w5_z := 0; w5_w := 0; w5_v := 0 |}.
Definition pk160 (s : ww5) : N := cat (w5_x s) (cat (w5_y s) (cat (w5_z s) (cat (w5_w s) (w5_v s)))).
Definition up160 (v : N) : ww5 :=
  {| w5_x := low32 v; w5_y := low32 (high32 v); w5_z := low32 (high32 (high32 v));
     w5_w := low32 (high32 (high32 (high32 v))); w5_v := high32 (high32 (high32 (high32 v))) |}.
Definition F160 (v : N) : N := pk160 (ww5_step (up160 v)).

Lemma up_pk160 s : ww5_ok s -> up160 (pk160 s) = s.
Proof.
  intros (A & B & C & D & E). destruct s as [x y z w v]. unfold up160, pk160. cbn [w5_x w5_y w5_z w5_w w5_v] in *.
  rewrite !high_cat, !low_cat by assumption. reflexivity.
Qed.
Lemma pk_up160 v : pk160 (up160 v) = v.
Proof. unfold up160, pk160. cbn [w5_x w5_y w5_z w5_w w5_v]. rewrite !cat_low_high. reflexivity. Qed.
Lemma pk160_lt s : ww5_ok s -> pk160 s < 2 ^ 160.
Proof.
  intros (A & B & C & D & E). unfold pk160. apply (cat_lt _ _ 128); [exact A|]. apply (cat_lt _ _ 96); [exact B|].
  apply (cat_lt _ _ 64); [exact C|]. apply (cat_lt _ _ 32); assumption.
Qed.
Lemma up160_ok v : v < 2 ^ 160 -> ww5_ok (up160 v).
Proof.
  intros H. unfold ww5_ok, up160. cbn [w5_x w5_y w5_z w5_w w5_v]. repeat split; try apply low32_lt.
  apply high32_lt, high32_lt, high32_lt, high32_lt. exact H.
Qed.
Lemma ww5_step_ok s : ww5_ok s -> ww5_ok (ww5_step s).
Proof.
  intros (A & B & C & D & E). unfold ww5_step, xorwow_next, ww5_of. cbv zeta.
  cbn [fst ww_x ww_y ww_z ww_w ww_v]. unfold ww5_ok. cbn [w5_x w5_y w5_z w5_w w5_v].
  repeat split; auto. repeat first [apply lxor_lt|apply shl_lt|apply shr_lt|assumption].
Qed.
Opaque cat low32 high32 shl shr N.lxor.
Lemma F160_linear : linear F160.
Proof.
  unfold F160, pk160, ww5_step, ww5_of, xorwow_next, up160. cbv zeta.
  cbn [fst ww_x ww_y ww_z ww_w ww_v w5_x w5_y w5_z w5_w w5_v]. lin.
Qed.
Transparent cat low32 high32 shl shr N.lxor.
Lemma F160_lt x : x < 2 ^ 160 -> F160 x < 2 ^ 160.
Proof. intros H. apply pk160_lt, ww5_step_ok, up160_ok, H. Qed.
Definition m160 : N := 1461502948799394993447908871571656830769365909505.
Lemma check160 : poly_check F160 160 m160 l160 1 = true.
Proof. vm_compute. reflexivity. Qed.
Lemma F160_period : full_period 160 F160.
Proof. apply (full_period_ok F160 160 m160 l160 F160_linear F160_lt l160_prime); [vm_compute; reflexivity|exact check160|reflexivity]. Qed.

Lemma ww5_period s : ww5_ok s -> s <> ww5_zero ->
  N.iter (2 ^ 160 - 1) ww5_step s = s /\
  (forall k, 0 < k < 2 ^ 160 - 1 -> N.iter k ww5_step s <> s) /\
  (forall k, ww5_ok (N.iter k ww5_step s) /\ N.iter k ww5_step s <> ww5_zero) /\
  (forall t, ww5_ok t -> t <> ww5_zero -> exists k, k < 2 ^ 160 - 1 /\ N.iter k ww5_step s = t).
Proof.
  apply (transport ww5_ok ww5_zero ww5_step 160 pk160 up160 F160).
  - exact up_pk160.
  - intros v _. apply pk_up160.
  - exact pk160_lt.
  - exact up160_ok.
  - exact ww5_step_ok.
  - reflexivity.
  - reflexivity.
  - repeat split.
  - exact F160_period.
Qed.

Definition xorwow_step (s : xorwow) : xorwow := fst (xorwow_next s).
Definition xorwow_ok (s : xorwow) : Prop :=
  ww_x s < 2 ^ 32 /\ ww_y s < 2 ^ 32 /\ ww_z s < 2 ^ 32 /\ ww_w s < 2 ^ 32 /\ ww_v s < 2 ^ 32 /\ ww_d s < 2 ^ 32.

Lemma ww5_of_step s : ww5_of (xorwow_step s) = ww5_step (ww5_of s).
Proof. destruct s; reflexivity. Qed.
Lemma ww5_of_iter k s : ww5_of (N.iter k xorwow_step s) = N.iter k ww5_step (ww5_of s).
Proof.
  induction k as [|k IH] using N.peano_ind; [reflexivity|]. rewrite !N.iter_succ, ww5_of_step, IH. reflexivity.
Qed.
Lemma d_iter k s : ww_d s < 2 ^ 32 -> ww_d (N.iter k xorwow_step s) = (ww_d s + k * 362437) mod 2 ^ 32.
Proof.
  intros Hd. induction k as [|k IH] using N.peano_ind.
  - rewrite N.mul_0_l, N.add_0_r, N.mod_small by exact Hd. reflexivity.
  - rewrite N.iter_succ. unfold xorwow_step at 1, xorwow_next. cbv zeta. cbn [fst ww_d].
    rewrite IH. unfold wrap. rewrite N.add_mod_idemp_l by discriminate. f_equal. lia.
Qed.
Lemma xorwow_eq s t : ww5_of s = ww5_of t -> ww_d s = ww_d t -> s = t.
Proof. destruct s, t. unfold ww5_of. cbn. intros H ->. injection H as -> -> -> -> ->. reflexivity. Qed.

Lemma period_divides {A} (f : A -> A) x P k :
  0 < P -> N.iter P f x = x -> (forall j, 0 < j < P -> N.iter j f x <> x) -> N.iter k f x = x -> (P | k).
Proof.
  intros HP E M Hk. apply N.mod_divide; [lia|].
  pose proof (N.div_mod k P ltac:(lia)) as D. pose proof (N.mod_lt k P ltac:(lia)) as L.
  destruct (N.eq_dec (k mod P) 0) as [Z|Z]; [exact Z|exfalso].
  apply (M (k mod P)); [lia|].
  rewrite D in Hk. rewrite N.add_comm, iter_plus in Hk. rewrite N.mul_comm, (iter_mult f _ P x E) in Hk. exact Hk.
Qed.

Lemma xorwow_period s : xorwow_ok s -> ww5_of s <> ww5_zero ->
  N.iter ((2 ^ 160 - 1) * 2 ^ 32) xorwow_step s = s /\
  (forall k, 0 < k < (2 ^ 160 - 1) * 2 ^ 32 -> N.iter k xorwow_step s <> s).
Proof.
  intros (A & B & C & D & E & F) Hz.
  assert (O5 : ww5_ok (ww5_of s)) by (repeat split; assumption).
  destruct (ww5_period (ww5_of s) O5 Hz) as (P1 & P2 & _).
  split.
  - apply xorwow_eq.
    + rewrite ww5_of_iter, N.mul_comm. apply iter_mult. exact P1.
    + rewrite d_iter by exact F.
      replace ((2 ^ 160 - 1) * 2 ^ 32 * 362437) with ((2 ^ 160 - 1) * 362437 * 2 ^ 32)
        by (rewrite <- !N.mul_assoc; f_equal; apply N.mul_comm).
      rewrite N.mod_add by discriminate. apply N.mod_small. exact F.
  - intros k Hk Ek.
    assert (D1 : (2 ^ 160 - 1 | k)).
    { apply (period_divides ww5_step (ww5_of s)); auto; [reflexivity|]. rewrite <- ww5_of_iter, Ek. reflexivity. }
    assert (D2 : (2 ^ 32 | k)).
    { apply (N.gauss (2 ^ 32) 362437 k); [|vm_compute; reflexivity].
      pose proof (d_iter k s F) as Dk. rewrite Ek in Dk. rewrite N.mul_comm.
      apply N.mod_divide; [discriminate|].
      pose proof (N.div_mod (ww_d s + k * 362437) (2 ^ 32) ltac:(discriminate)) as DM. rewrite <- Dk in DM.
      assert (X : k * 362437 = (ww_d s + k * 362437) / 2 ^ 32 * 2 ^ 32) by lia.
      rewrite X. apply N.mod_mul. discriminate. }
    destruct D1 as (c & Ec). rewrite Ec in D2. rewrite N.mul_comm in D2.
    apply N.gauss in D2; [|vm_compute; reflexivity].
    destruct D2 as (e & Ee). subst c. destruct (N.eq_dec e 0) as [->|]; [lia|].
    revert Hk. rewrite Ec. generalize (2 ^ 160 - 1). intros P Hk. nia.
Qed.
