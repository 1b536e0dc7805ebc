(** Property C73: the generators of xorshift.hh as sources of random numbers. *)
From Coq Require Import ZifyBool ZifyN.
From Verif Require Import Cpp Model_xorshift Spec_xorshift Lib_orbit Proof_xorshift Prop_xorshift.
Local Open Scope N_scope.
Ltac Zify.zify_post_hook ::= idtac.

Lemma wrap_lt w x : wrap w x < 2 ^ w.
Proof. unfold wrap. apply N.mod_lt. apply N.pow_nonzero. discriminate. Qed.
Lemma arg_lt args i d : arg args i d < 2 ^ 32.
Proof. apply wrap_lt. Qed.

(** C73: every result of every object, whatever its seed, is between min() and max() (UniformRandomBitGenerator) *)
Theorem C73_results_in_range : forall seed args k,
  xs_min <= output xs32_next (xs32_new seed) k <= xs_max 32 /\
  xs_min <= output xs64_next (xs64_new seed) k <= xs_max 64 /\
  xs_min <= output xorwow_next (xorwow_new args) k <= xs_max 32 /\
  xs_min <= output xs128_next (xs128_new args) k <= xs_max 32.
Proof.
  intros seed args k. unfold xs_min, xs_max.
  assert (forall w x, x < 2 ^ w -> 0 <= x <= 2 ^ w - 1) as H by (intros; lia).
  split; [|split; [|split]]; apply H; unfold output.
  - cbn [snd fst xs32_next]. apply xs32_lt. refine (iter_inv (fun y => y < 2 ^ 32) _ _ k _ _); [exact xs32_lt|].
    unfold xs32_new. destruct seed; [apply wrap_lt|reflexivity].
  - cbn [snd fst xs64_next]. apply xs64_lt. refine (iter_inv (fun y => y < 2 ^ 64) _ _ k _ _); [exact xs64_lt|].
    unfold xs64_new. destruct seed; [apply wrap_lt|reflexivity].
  - apply wrap_lt.
  - assert (xs128_ok (N.iter k (fun s => fst (xs128_next s)) (xs128_new args))) as Ho.
    { refine (iter_inv xs128_ok _ _ k _ _); [exact xs128_next_ok|].
      unfold xs128_ok, xs128_new. cbn [x1_x x1_y x1_z x1_w]. split; [|split; [|split]]; apply arg_lt. }
    apply xs128_next_ok in Ho. destruct Ho as (_ & _ & _ & Ho). exact Ho.
Qed.
Print Assumptions C73_results_in_range.

(** C73: reset gives the object a constructor call with the same arguments would give; without arguments the published
    seeds and sequences *)
Theorem C73_reset_is_construction : forall y seed s args t,
  xs32_reset y seed = xs32_new seed /\ xs64_reset y seed = xs64_new seed /\
  xorwow_reset s args = xorwow_new args /\ xs128_reset t args = xs128_new args /\
  (seed = None -> args = [] ->
    map (output xs32_next (xs32_reset y seed)) [0; 1; 2] = [723471715; 2497366906; 2064144800] /\
    output xs64_next (xs64_reset y seed) 0 = 8748534153485358512 /\
    map (output xorwow_next (xorwow_reset s args)) [0; 1] = [246875399; 3690007200] /\
    map (output xs128_next (xs128_reset t args)) [0; 1; 2; 3; 4] = [3701687786; 458299110; 2500872618; 3633119408; 516391518]).
Proof.
  intros y seed s args t. split; [reflexivity|]. split; [reflexivity|]. split; [reflexivity|]. split; [reflexivity|].
  intros -> ->. split; [vm_compute; reflexivity|]. split; [vm_compute; reflexivity|]. split; vm_compute; reflexivity.
Qed.
Print Assumptions C73_reset_is_construction.

Lemma output_xs32 s k : output xs32_next s k = N.iter k xs32 (xs32 s).
Proof. unfold output, xs32_next. cbn [fst snd]. rewrite <- N.iter_succ_r, N.iter_succ. reflexivity. Qed.
Lemma output_xs64 s k : output xs64_next s k = N.iter k xs64 (xs64 s).
Proof. unfold output, xs64_next. cbn [fst snd]. rewrite <- N.iter_succ_r, N.iter_succ. reflexivity. Qed.
Lemma full_period_outputs n f s v : (forall x, x < 2 ^ n -> f x < 2 ^ n) -> full_period n f -> 0 < s < 2 ^ n -> 0 < v < 2 ^ n ->
  exactly_one_below (2 ^ n - 1) (fun k => N.iter k f (f s) = v).
Proof.
  intros Hlt Hf Hs Hv. destruct (Hf s Hs) as (_ & _ & H3 & _). pose proof (H3 1) as H1. change (N.iter 1 f s) with (f s) in H1.
  destruct (Hf (f s) H1) as (P1 & P2 & _ & P4). destruct (P4 v Hv) as (k & Hk & E). exists k. split; [exact Hk|]. split; [exact E|].
  intros k' Hk' E'. apply (iter_distinct f (f s) (2 ^ n - 1)); auto. congruence.
Qed.
(** C73: within a period Xorshift32 and Xorshift64 return every value except 0 exactly once *)
Theorem C73_every_value_once : forall seed v,
  (0 < seed < 2 ^ 32 -> 0 < v < 2 ^ 32 -> exactly_one_below (2 ^ 32 - 1) (fun k => output xs32_next (xs32_new (Some seed)) k = v)) /\
  (0 < seed < 2 ^ 64 -> 0 < v < 2 ^ 64 -> exactly_one_below (2 ^ 64 - 1) (fun k => output xs64_next (xs64_new (Some seed)) k = v)).
Proof.
  intros seed v. split; intros Hs Hv.
  - destruct (full_period_outputs 32 xs32 seed v xs32_lt xs32_period Hs Hv) as (k & Hk & E & U).
    assert (xs32_new (Some seed) = seed) as Es by (unfold xs32_new, wrap; apply N.mod_small; apply Hs).
    exists k. rewrite Es. split; [exact Hk|]. split; [rewrite output_xs32; exact E|]. intros k' Hk' E'. apply U; [exact Hk'|].
    rewrite <- output_xs32. exact E'.
  - destruct (full_period_outputs 64 xs64 seed v xs64_lt xs64_period Hs Hv) as (k & Hk & E & U).
    assert (xs64_new (Some seed) = seed) as Es by (unfold xs64_new, wrap; apply N.mod_small; apply Hs).
    exists k. rewrite Es. split; [exact Hk|]. split; [rewrite output_xs64; exact E|]. intros k' Hk' E'. apply U; [exact Hk'|].
    rewrite <- output_xs64. exact E'.
Qed.
Print Assumptions C73_every_value_once.

(** the members of Xorshift128 are its last four results *)
Lemma xs128_state s k : N.iter (k + 4) xs128_step s =
  {| x1_x := output xs128_next s k; x1_y := output xs128_next s (k + 1); x1_z := output xs128_next s (k + 2); x1_w := output xs128_next s (k + 3) |}.
Proof.
  unfold output. fold xs128_step.
  replace (k + 4) with (N.succ (N.succ (N.succ (N.succ k)))) by lia. replace (k + 3) with (N.succ (N.succ (N.succ k))) by lia.
  replace (k + 2) with (N.succ (N.succ k)) by lia. replace (k + 1) with (N.succ k) by lia. rewrite !N.iter_succ. reflexivity.
Qed.
(** C73: within a period of Xorshift128 every four consecutive results, except four zeros, occur exactly once *)
Theorem C73_xorshift128_four_results : forall args a b c d,
  a < 2 ^ 32 -> b < 2 ^ 32 -> c < 2 ^ 32 -> d < 2 ^ 32 -> a <> 0 \/ b <> 0 \/ c <> 0 \/ d <> 0 ->
  xs128_new args <> {| x1_x := 0; x1_y := 0; x1_z := 0; x1_w := 0 |} ->
  let out := output xs128_next (xs128_new args) in
  exactly_one_below (2 ^ 128 - 1) (fun k => out k = a /\ out (k + 1) = b /\ out (k + 2) = c /\ out (k + 3) = d).
Proof.
  intros args a b c d Ha Hb Hc Hd Hn Hz out. set (s := xs128_new args) in *.
  assert (xs128_ok s) as Ho by (unfold xs128_ok, s, xs128_new; cbn [x1_x x1_y x1_z x1_w]; split; [|split; [|split]]; apply arg_lt).
  destruct (xs128_period s Ho Hz) as (_ & _ & P3 & _). destruct (P3 4) as (O4 & Z4).
  destruct (xs128_period (N.iter 4 xs128_step s) O4 Z4) as (P1 & P2 & _ & P4).
  set (t := {| x1_x := a; x1_y := b; x1_z := c; x1_w := d |}).
  assert (xs128_ok t) as Ot by (unfold xs128_ok, t; cbn [x1_x x1_y x1_z x1_w]; auto).
  assert (t <> xs128_zero) as Zt by (unfold t, xs128_zero; intros E; injection E; intros; lia).
  assert (forall k, N.iter k xs128_step (N.iter 4 xs128_step s) = N.iter (k + 4) xs128_step s) as Hs by (intros; symmetry; apply iter_plus).
  destruct (P4 t Ot Zt) as (k & Hk & E). exists k. split; [exact Hk|].
  assert (forall k, N.iter k xs128_step (N.iter 4 xs128_step s) = t <-> out k = a /\ out (k + 1) = b /\ out (k + 2) = c /\ out (k + 3) = d) as Hiff.
  { intros j. rewrite Hs, xs128_state. unfold t. split.
    - intros H. injection H. auto.
    - unfold out. intros (-> & -> & -> & ->). reflexivity. }
  split; [apply Hiff; exact E|]. intros k' Hk' E'. apply Hiff in E'.
  apply (iter_distinct xs128_step (N.iter 4 xs128_step s) (2 ^ 128 - 1)); auto. congruence.
Qed.
Print Assumptions C73_xorshift128_four_results.

(** the states of Xorwow form one cycle *)
Lemma xorwow_reaches s t : xorwow_ok s -> ww5_of s <> ww5_zero -> xorwow_ok t -> ww5_of t <> ww5_zero ->
  exists k, k < (2 ^ 160 - 1) * 2 ^ 32 /\ N.iter k xorwow_step s = t.
Proof.
  intros (A & B & C & D & E & F) Hz (A' & B' & C' & D' & E' & F') Hz'.
  assert (O5 : ww5_ok (ww5_of s)) by (split; [|split; [|split; [|split]]]; assumption).
  assert (O5' : ww5_ok (ww5_of t)) by (split; [|split; [|split; [|split]]]; assumption).
  destruct (ww5_period (ww5_of s) O5 Hz) as (P1 & _ & _ & P4). destruct (P4 _ O5' Hz') as (k1 & Hk1 & E1).
  (* k = k1 + (2^160 - 1) j, with d + 362437 k = d' modulo 2^32 *)
  set (inv := 945708813).
  assert ((362437 * inv) mod 2 ^ 32 = 1) as Hinv by (vm_compute; reflexivity).
  set (k2 := (ww_d t + (2 ^ 32 - ww_d s)) * inv).
  set (j := (k1 + k2 * (2 ^ 32 - 1)) mod 2 ^ 32).
  assert (j < 2 ^ 32) as Hj by (apply N.mod_lt; discriminate).
  exists (k1 + (2 ^ 160 - 1) * j). split.
  { revert Hk1. change (2 ^ 160) with (2 ^ 128 * 2 ^ 32). generalize (2 ^ 128 * 2 ^ 32). intros P Hk1. nia. }
  apply xorwow_eq.
  - rewrite ww5_of_iter, iter_plus. rewrite N.mul_comm, (iter_mult ww5_step j (2 ^ 160 - 1) _ P1). exact E1.
  - rewrite d_iter by exact F. transitivity (ww_d t mod 2 ^ 32); [|apply N.mod_small; exact F'].
    (* in Z *)
    apply N2Z.inj. rewrite !N2Z.inj_mod. rewrite N2Z.inj_add, !N2Z.inj_mul, N2Z.inj_add, N2Z.inj_mul.
    unfold j. rewrite N2Z.inj_mod, N2Z.inj_add, N2Z.inj_mul. unfold k2. rewrite N2Z.inj_mul, N2Z.inj_add, (N2Z.inj_sub (2 ^ 32) (ww_d s)) by lia.
    assert ((Z.of_N 362437 * Z.of_N inv) mod Z.of_N (2 ^ 32) = 1)%Z as Hi by (vm_compute; reflexivity).
    change (Z.of_N (2 ^ 32)) with (2 ^ 32)%Z in *. change (Z.of_N (2 ^ 160 - 1)) with (2 ^ 128 * 2 ^ 32 - 1)%Z.
    change (Z.of_N (2 ^ 32 - 1)) with (2 ^ 32 - 1)%Z.
    set (m := (2 ^ 32)%Z) in *. assert (0 < m)%Z as Hm by reflexivity. clearbody m.
    generalize dependent (Z.of_N inv). intros v Hi.
    generalize (Z.of_N (ww_d s)) (Z.of_N (ww_d t)) (Z.of_N k1). intros ds dt x. change (Z.of_N 362437) with 362437%Z in *.
    set (y := (x + (dt + (m - ds)) * v * (m - 1))%Z).
    assert (exists q, 362437 * v = m * q + 1)%Z as (q & Eq).
    { exists ((362437 * v) / m)%Z. rewrite <- Hi. apply Z.div_mod. lia. }
    pose proof (Z.div_mod y m ltac:(lia)) as Ey. set (r := (y mod m)%Z) in *. set (g := (y / m)%Z) in *.
    assert (r = y - m * g)%Z as -> by lia. clearbody g. unfold y.

    assert (ds + (x + (2 ^ 128 * m - 1) * (x + (dt + (m - ds)) * v * (m - 1) - m * g)) * 362437 =
      dt + m * ((2 ^ 128 * (x + (dt + (m - ds)) * v * (m - 1) - m * g) + g - (dt + (m - ds)) * v) * 362437 + (dt + (m - ds)) * q + 1))%Z as ->.
    { assert ((dt + (m - ds)) * v * 362437 = (dt + (m - ds)) * (m * q + 1))%Z as Ev by (rewrite <- Eq; ring).
      assert ((ds + (x + (2 ^ 128 * m - 1) * (x + (dt + (m - ds)) * v * (m - 1) - m * g)) * 362437 -
       (dt + m * ((2 ^ 128 * (x + (dt + (m - ds)) * v * (m - 1) - m * g) + g - (dt + (m - ds)) * v) * 362437 + (dt + (m - ds)) * q + 1)) =
       (dt + (m - ds)) * v * 362437 - (dt + (m - ds)) * (m * q + 1))%Z) as Ed by ring. lia. }
    rewrite (Z.mul_comm m), Z.mod_add by lia. reflexivity.
Qed.

(** the results of Xorwow are sums of the last member and the counter *)
Lemma wrap_add_inj d v v' : v < 2 ^ 32 -> v' < 2 ^ 32 -> wrap 32 (d + v) = wrap 32 (d + v') -> v = v'.
Proof.
  unfold wrap. intros H H' E. assert ((d + v + (2 ^ 32 - d mod 2 ^ 32)) mod 2 ^ 32 = (d + v' + (2 ^ 32 - d mod 2 ^ 32)) mod 2 ^ 32) as E2.
  { rewrite <- (N.add_mod_idemp_l (d + v)), <- (N.add_mod_idemp_l (d + v')) by discriminate. rewrite E. reflexivity. }
  pose proof (N.div_mod d (2 ^ 32) ltac:(discriminate)) as Dd. pose proof (N.mod_lt d (2 ^ 32) ltac:(discriminate)) as Dl.
  assert (forall u, u < 2 ^ 32 -> (d + u + (2 ^ 32 - d mod 2 ^ 32)) mod 2 ^ 32 = u) as G.
  { intros u Hu. replace (d + u + (2 ^ 32 - d mod 2 ^ 32)) with (u + (d / 2 ^ 32 + 1) * 2 ^ 32) by lia.
    rewrite N.mod_add by discriminate. apply N.mod_small. exact Hu. }
  rewrite !G in E2 by assumption. exact E2.
Qed.
Lemma wrap_sub d o : o < 2 ^ 32 -> exists v, v < 2 ^ 32 /\ wrap 32 (d + v) = o.
Proof.
  intros Ho. exists (wrap 32 (o + (2 ^ 32 - d mod 2 ^ 32))). split; [apply wrap_lt|]. unfold wrap.
  rewrite N.add_mod_idemp_r by discriminate.
  pose proof (N.div_mod d (2 ^ 32) ltac:(discriminate)) as Dd. pose proof (N.mod_lt d (2 ^ 32) ltac:(discriminate)) as Dl.
  replace (d + (o + (2 ^ 32 - d mod 2 ^ 32))) with (o + (d / 2 ^ 32 + 1) * 2 ^ 32) by lia.
  rewrite N.mod_add by discriminate. apply N.mod_small. exact Ho.
Qed.
Lemma xorwow_output s k : output xorwow_next s k = wrap 32 (ww_d (N.iter (k + 1) xorwow_step s) + ww_v (N.iter (k + 1) xorwow_step s)).
Proof. unfold output. fold xorwow_step. rewrite N.add_1_r, N.iter_succ. reflexivity. Qed.
Lemma xorwow_state s k : ww5_of (N.iter (k + 5) xorwow_step s) =
  {| w5_x := ww_v (N.iter (k + 1) xorwow_step s); w5_y := ww_v (N.iter (k + 2) xorwow_step s); w5_z := ww_v (N.iter (k + 3) xorwow_step s);
     w5_w := ww_v (N.iter (k + 4) xorwow_step s); w5_v := ww_v (N.iter (k + 5) xorwow_step s) |}.
Proof.
  replace (k + 5) with (N.succ (N.succ (N.succ (N.succ (N.succ k))))) by lia.
  replace (k + 4) with (N.succ (N.succ (N.succ (N.succ k)))) by lia. replace (k + 3) with (N.succ (N.succ (N.succ k))) by lia.
  replace (k + 2) with (N.succ (N.succ k)) by lia. replace (k + 1) with (N.succ k) by lia. rewrite !N.iter_succ. reflexivity.
Qed.
(** C73: five consecutive results of Xorwow together with the value [d] of the counter before them: every combination occurs exactly
    once within a period, except that the results cannot be the next five values of the counter *)
Theorem C73_xorwow_five_results : forall args d o1 o2 o3 o4 o5,
  d < 2 ^ 32 -> o1 < 2 ^ 32 -> o2 < 2 ^ 32 -> o3 < 2 ^ 32 -> o4 < 2 ^ 32 -> o5 < 2 ^ 32 ->
  let counter := fun i => (d + i * 362437) mod 2 ^ 32 in
  ~ (o1 = counter 1 /\ o2 = counter 2 /\ o3 = counter 3 /\ o4 = counter 4 /\ o5 = counter 5) ->
  let s := xorwow_new args in
  ww_x s <> 0 \/ ww_y s <> 0 \/ ww_z s <> 0 \/ ww_w s <> 0 \/ ww_v s <> 0 ->
  let out := output xorwow_next s in
  exactly_one_below ((2 ^ 160 - 1) * 2 ^ 32) (fun k => (ww_d s + k * 362437) mod 2 ^ 32 = d /\
    out k = o1 /\ out (k + 1) = o2 /\ out (k + 2) = o3 /\ out (k + 3) = o4 /\ out (k + 4) = o5).
Proof.
  intros args d o1 o2 o3 o4 o5 Hd H1 H2 H3 H4 H5 counter Hne s Hz out.
  assert (xorwow_ok s) as Ho by (unfold xorwow_ok, s, xorwow_new; cbn [ww_x ww_y ww_z ww_w ww_v ww_d]; split; [|split; [|split; [|split; [|split]]]]; apply arg_lt).
  assert (ww5_of s <> ww5_zero) as Hz'.
  { unfold ww5_of, ww5_zero. intros E. injection E as E1 E2 E3 E4 E5. tauto. }
  clearbody s.
  assert (forall k, xorwow_ok (N.iter k xorwow_step s) /\ ww5_of (N.iter k xorwow_step s) <> ww5_zero) as Hall.
  { intros k. destruct Ho as (A & B & C & D & E & F).
    assert (O5 : ww5_ok (ww5_of s)) by (split; [|split; [|split; [|split]]]; assumption).
    destruct (ww5_period (ww5_of s) O5 Hz') as (_ & _ & P3 & _). destruct (P3 k) as (G1 & G2). rewrite <- ww5_of_iter in G1, G2.
    split; [|exact G2]. destruct G1 as (B1 & B2 & B3 & B4 & B5). unfold xorwow_ok.
    split; [exact B1|]. split; [exact B2|]. split; [exact B3|]. split; [exact B4|]. split; [exact B5|].
    rewrite d_iter by exact F. apply N.mod_lt. discriminate. }
  destruct (Hall 5) as (O5 & Z5). set (s5 := N.iter 5 xorwow_step s) in *.
  destruct (wrap_sub (counter 1) o1 H1) as (v1 & V1 & E1). destruct (wrap_sub (counter 2) o2 H2) as (v2 & V2 & E2).
  destruct (wrap_sub (counter 3) o3 H3) as (v3 & V3 & E3). destruct (wrap_sub (counter 4) o4 H4) as (v4 & V4 & E4).
  destruct (wrap_sub (counter 5) o5 H5) as (v5 & V5 & E5).
  assert (forall i, counter i < 2 ^ 32) as Hc by (intros; apply N.mod_lt; discriminate).
  set (t := {| ww_x := v1; ww_y := v2; ww_z := v3; ww_w := v4; ww_v := v5; ww_d := counter 5 |}).
  assert (xorwow_ok t) as Ot by (unfold xorwow_ok, t; cbn [ww_x ww_y ww_z ww_w ww_v ww_d]; auto 10).
  assert (ww5_of t <> ww5_zero) as Zt.
  { unfold ww5_of, ww5_zero, t. cbn [ww_x ww_y ww_z ww_w ww_v ww_d]. intros E. injection E as -> -> -> -> ->. apply Hne.
    assert (forall i, wrap 32 (counter i + 0) = counter i) as Hw by (intros i; rewrite N.add_0_r; apply N.mod_small; apply Hc).
    rewrite Hw in E1, E2, E3, E4, E5. auto. }
  destruct (xorwow_reaches s5 t O5 Z5 Ot Zt) as (k & Hk & Ek). destruct (xorwow_period s5 O5 Z5) as (P1 & P2).
  assert (forall k, N.iter k xorwow_step s5 = N.iter (k + 5) xorwow_step s) as Hs by (intros; symmetry; apply iter_plus).
  assert (forall k, N.iter k xorwow_step s5 = t <-> (ww_d s + k * 362437) mod 2 ^ 32 = d /\
    out k = o1 /\ out (k + 1) = o2 /\ out (k + 2) = o3 /\ out (k + 3) = o4 /\ out (k + 4) = o5) as Hiff.
  { intros j. rewrite Hs. unfold out. rewrite !xorwow_output.
    replace (j + 1 + 1) with (j + 2) by lia. replace (j + 2 + 1) with (j + 3) by lia. replace (j + 3 + 1) with (j + 4) by lia. replace (j + 4 + 1) with (j + 5) by lia.
    assert (forall i, ww_d (N.iter (j + i) xorwow_step s) = ((ww_d s + j * 362437) mod 2 ^ 32 + i * 362437) mod 2 ^ 32) as Hdi.
    { intros i. rewrite d_iter by apply Ho. rewrite N.add_mod_idemp_l by discriminate. f_equal. lia. }
    assert (forall i, ww_v (N.iter (j + i) xorwow_step s) < 2 ^ 32) as Hvi by (intros i; apply (Hall (j + i))).
    split.
    - intros Et. assert (ww_d (N.iter (j + 5) xorwow_step s) = counter 5) as Ed by (rewrite Et; reflexivity).
      assert ((ww_d s + j * 362437) mod 2 ^ 32 = d) as Edd.
      { rewrite Hdi in Ed. unfold counter in Ed. rewrite (N.add_comm _ (5 * 362437)), (N.add_comm d) in Ed.
        apply (wrap_add_inj (5 * 362437)); [apply N.mod_lt; discriminate|exact Hd|exact Ed]. }
      rewrite !Hdi, Edd. pose proof (xorwow_state s j) as St. rewrite Et in St. unfold ww5_of, t in St. cbn [ww_x ww_y ww_z ww_w ww_v] in St.
      injection St as S1 S2 S3 S4. rewrite <- S1, <- S2, <- S3, <- S4. rewrite Et. cbn [ww_v t]. auto 10.
    - intros (Edd & F1 & F2 & F3 & F4 & F5). rewrite !Hdi, Edd in F1, F2, F3, F4, F5. apply xorwow_eq.
      + rewrite xorwow_state. unfold ww5_of, t. cbn [ww_x ww_y ww_z ww_w ww_v].
        rewrite <- E1 in F1. rewrite <- E2 in F2. rewrite <- E3 in F3. rewrite <- E4 in F4. rewrite <- E5 in F5.
        apply wrap_add_inj in F1; [|apply Hvi|exact V1]. apply wrap_add_inj in F2; [|apply Hvi|exact V2]. apply wrap_add_inj in F3; [|apply Hvi|exact V3].
        apply wrap_add_inj in F4; [|apply Hvi|exact V4]. apply wrap_add_inj in F5; [|apply Hvi|exact V5].
        rewrite F1, F2, F3, F4, F5. reflexivity.
      + rewrite Hdi, Edd. reflexivity. }
  exists k. split; [exact Hk|]. split; [apply Hiff; exact Ek|]. intros k' Hk' E'. apply Hiff in E'.
  apply (iter_distinct xorwow_step s5 ((2 ^ 160 - 1) * 2 ^ 32)); auto. congruence.
Qed.
Print Assumptions C73_xorwow_five_results.
Example C73_nonvacuous : xs128_new [] <> {| x1_x := 0; x1_y := 0; x1_z := 0; x1_w := 0 |} /\ ww_x (xorwow_new [7; 9]) = 7 /\
  ww_z (xorwow_new [7; 9]) = 521288629 /\ 0 < 2463534242 < 2 ^ 32.
Proof. split; [vm_compute; discriminate|]. vm_compute. auto. Qed.
