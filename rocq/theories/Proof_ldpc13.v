(** LDPC decoder: iterating and decoding a word turned by a codeword. *)
From Coq Require Import ZifyBool Permutation.
From Verif Require Import Cpp Model_simd Model_ldpc Spec_ldpc Lib_list Proof_bits Proof_simd Proof_ldpc1 Proof_ldpc2 Proof_ldpc3 Proof_ldpc4 Proof_ldpc5 Proof_ldpc6 Proof_ldpc7 Proof_ldpc8 Proof_ldpc9 Proof_ldpc10 Proof_ldpc11 Proof_ldpc12 Prop_ldpc Spec_ldpc_turn.
Open Scope nat_scope.
Ltac Zify.zify_post_hook ::= idtac.

Section Turn.
Variable T : table.
Variable D : nat.
Hypothesis DOK : decoder_ok T D.
Variable BETA : Z.
Hypothesis HB : (0 <= BETA <= 255)%Z.
Notation OK := (ok_table T D DOK).
Notation M := (t_M T).
Notation q := (t_q T).
Notation rows := (rows_of T).
Notation cl i := (cls M q i 0 rows).
Notation W := (d_W T D).
Variable C : ldpc_const.
Hypothesis HC : counts T (lc_cnc C).
Hypothesis HS : segs T D (fun _ _ => True) (lc_loc C).
Hypothesis HWq : 1 < W * q.

Lemma start_base i j : i < q -> message_start T D i j = bbase T D i j.
Proof. intros Hi. unfold message_start, bbase. rewrite (link_start_base T D OK i j Hi). reflexivity. Qed.
Lemma seen_after s0 t i j s : seen T D BETA C s0 t i j s -> (i < q \/ (i = q /\ j = 0)) /\ state_after T D BETA C s0 ((t * q + i) * W + j) = Some s.
Proof.
  pose proof (W_pos T D DOK) as HW. pose proof (ok_q T OK) as Hq.
  intros H. induction H as [|t i j s x s' H IH Hi Hj E|t i s H IH|t s H IH].
  - split; [lia|reflexivity].
  - destruct IH as (_ & IH). split; [lia|]. rewrite Nat.add_succ_r. cbn [state_after]. rewrite IH. cbv zeta.
    assert (((t * q + i) * W + j) / W = t * q + i) as -> by (rewrite Nat.div_add_l by lia; rewrite Nat.div_small by lia; lia).
    assert ((t * q + i) mod q = i) as -> by (rewrite Nat.add_comm, Nat.mod_add by lia; apply Nat.mod_small; exact Hi).
    assert (((t * q + i) * W + j) mod W = j) as -> by (rewrite Nat.add_comm, Nat.mod_add by lia; apply Nat.mod_small; exact Hj).
    rewrite (data_links_cl T OK i Hi), (start_base i j Hi), (link_start_base T D OK i j Hi), E. reflexivity.
  - destruct IH as (A & IH). split; [lia|]. rewrite <- IH. f_equal. lia.
  - destruct IH as (_ & IH). split; [lia|]. rewrite <- IH. f_equal. lia.
Qed.
Lemma seen_prefix s0 t i j s : seen T D BETA C s0 t i j s -> forall t2, t2 <= t -> exists s2, seen T D BETA C s0 t2 0 0 s2.
Proof.
  intros H. induction H as [|t i j s x s' H IH Hi Hj E|t i s H IH|t s H IH]; intros t2 Hle; [exists s0; replace t2 with 0 by lia; apply seen_start|auto|auto|].
  assert (t2 <= t \/ t2 = S t) as [A| ->] by lia; [auto|]. exists s. apply seen_turn. exact H.
Qed.
Lemma seen_det s0 t i j s s' : seen T D BETA C s0 t i j s -> seen T D BETA C s0 t i j s' -> s = s'.
Proof. intros A B. apply seen_after in A, B. destruct A as (_ & A). destruct B as (_ & B). congruence. Qed.

Section Signs.
Variables cm cp : list (list Z).
Hypothesis Sm : forall x n, x < d_MSG T D -> n < D -> sg1 (lane cm x n).
Hypothesis Sp : forall p, p < t_R T -> sg1 (nth p (pty_view T D cp) 0%Z).
Hypothesis HCW : forall p, p < t_R T -> check_prod T (msg_view T D cm) (pty_view T D cp) p = 1%Z.
Notation state_turned := (state_turned T D C cm cp).

Lemma zprod_mul {A} (f g : A -> Z) l : zprod (map (fun k => (f k * g k)%Z) l) = (zprod (map f l) * zprod (map g l))%Z.
Proof. induction l as [|x l IH]; [reflexivity|]. cbn [map]. unfold zprod in *. cbn [fold_right]. rewrite IH. ring. Qed.
Lemma checks_turned s1 s2 p : state_turned s1 s2 -> p < t_R T ->
  check_prod T (msg_view T D (ls_msg s2)) (pty_view T D (ls_pty s2)) p = check_prod T (msg_view T D (ls_msg s1)) (pty_view T D (ls_pty s1)) p.
Proof.
  intros HR Hp. destruct (pty_pos T D DOK p Hp) as (i & j & n & Hi & Hj & Hn & ->). rewrite <- !(fetched_prod T D DOK C HS) by assumption.
  transitivity (zprod (map (fun k => (fs T D C cm cp i j k n * Z.sgn (fetched T D C (ls_msg s1) (ls_pty s1) i j k n))%Z) (seq 0 (length (cl i) + 2)))).
  - f_equal. apply map_ext_in. intros k Hk. apply in_seq in Hk. rewrite (fetched_turned T D DOK C HS HWq cm cp Sm Sp HCW s1 s2 HR i j Hi Hj) by (assumption || lia).
    rewrite Z.sgn_mul. f_equal. apply sgn_sg1. apply (fs_sg1 T D DOK C HS HWq cm cp Sm Sp HCW); (assumption || lia).
  - rewrite zprod_mul. change (zprod (map (fun k => fs T D C cm cp i j k n) (seq 0 (length (cl i) + 2)))) with (prod1 (map (fun k => fs T D C cm cp i j k n) (seq 0 (length (cl i) + 2)))).
    rewrite (signs_prod T D DOK C HS cm cp HCW i j Hi Hj n Hn). lia.
Qed.
Lemma clean_turned s1 s2 : state_turned s1 s2 -> (clean T D s1 <-> clean T D s2).
Proof.
  intros HR. unfold clean, satisfies, all_checks. split; intros H p Hp; specialize (H p Hp); pose proof (checks_turned s1 s2 p HR Hp) as E; unfold check_prod in E; unfold check_holds in *; congruence.
Qed.
Lemma iterate_turned s0 fuel : forall t s1 s2 trials, (forall t' i j s, t' < t + Z.to_nat trials -> (forall t2 s2, t2 <= t' -> seen T D BETA C s0 t2 0 0 s2 -> ~ clean T D s2) -> i < q -> j < W -> seen T D BETA C s0 t' i j s -> calm T D BETA C s i j) ->
  (forall t2 s2, t2 < t -> seen T D BETA C s0 t2 0 0 s2 -> ~ clean T D s2) ->
  seen T D BETA C s0 t 0 0 s1 -> state_turned s1 s2 -> (- 2147483648 < trials <= 2147483647)%Z -> fuel = S (Z.to_nat trials) ->
  exists s1' s2' r, ldpc_iterate T D BETA fuel C s1 trials = Ok (s1', r) /\ ldpc_iterate T D BETA fuel C s2 trials = Ok (s2', r) /\ state_turned s1' s2'.
Proof.
  induction fuel as [|f IH]; intros t s1 s2 trials HCalm HNC Se HR Ht Hf; [discriminate|]. cbn [ldpc_iterate].
  assert (HR' := HR). destruct HR' as (Sh1 & Sh2 & _). pose proof (clean_turned s1 s2 HR) as HCl.
  destruct (bad_ok T D DOK C HC HS (ls_msg s1) (ls_pty s1)) as (b & E & Hb); [apply Sh1|apply Sh1|].
  destruct (bad_ok T D DOK C HC HS (ls_msg s2) (ls_pty s2)) as (b2 & E2 & Hb2); [apply Sh2|apply Sh2|].
  unfold clean in HCl. assert (b2 = b) as -> by (destruct b, b2; try reflexivity; exfalso; [assert (true = false) by tauto|assert (true = false) by tauto]; discriminate).
  rewrite E, E2. cbn [bind]. destruct b; [|exists s1, s2, trials; auto].
  assert (forall t2 s', t2 <= t -> seen T D BETA C s0 t2 0 0 s' -> ~ clean T D s') as HNC'.
  { intros t2 s' Hle S2. destruct (Nat.eq_dec t2 t) as [-> |]; [|apply (HNC t2); [lia|exact S2]]. rewrite (seen_det _ _ _ _ _ _ S2 Se). unfold clean. intros HH. apply Hb in HH. discriminate. }
  unfold chk. assert (int_ok (trials - 1) = true) as -> by (unfold int_ok; lia). cbn [bind].
  destruct (Z.leb_spec 0 (trials - 1)); [|exists s1, s2, (trials - 1)%Z; auto].
  destruct (update_turned T D DOK BETA HB C HC HS HWq cm cp Sm Sp HCW s0 t s1 s2) as (a & b & Ea & Eb & R & Se'); [intros i j s Hi Hj Hs; apply (HCalm t); [lia|exact HNC'|exact Hi|exact Hj|exact Hs]|exact Se|exact HR|].
  rewrite Ea, Eb. cbn [bind]. apply (IH (S t)); [|intros t2 s' Hlt; apply HNC'; lia|exact Se'|exact R|lia|lia].
  intros t' i j s Hlt. apply HCalm. lia.
Qed.
End Signs.

(** a start of the decoder on given values *)
Definition starts (wd : list N) (message parity : list Z) (s : ldpc_state) : Prop :=
  shaped T D s /\ msg_view T D (ls_msg s) = message /\ pty_view T D (ls_pty s) = parity /\ (forall y n, lane (ls_bnl s) y n = 0%Z) /\ ls_wd s = wd.

Lemma load_msg message msg0 : vecs D (d_MSG T D) msg0 -> length message = t_K T -> Forall i8 message ->
  exists msg, ldpc_load T D (length rows) (d_msg_at T D) message msg0 = Ok msg /\ vecs D (d_MSG T D) msg /\ msg_view T D msg = message.
Proof.
  intros Vm Lm Fm. rewrite (MSG_eq T D DOK) in *. destruct (load_ok T D (length rows) (d_msg_at T D) message msg0 Vm Fm) as (msg & E2 & Vm' & Hm).
  { intros i j n Hi Hj Hn. rewrite Lm. apply (msg_view_at T D DOK [] i j n Hi Hj Hn). }
  exists msg. split; [exact E2|]. split; [exact Vm'|]. apply (list_ext _ _ 0%Z); [rewrite length_msg_view; lia|]. intros p Hpp. rewrite length_msg_view in Hpp.
  destruct (msg_pos T D DOK p Hpp) as (i & j & n & Hi & Hj & Hn & ->). rewrite (proj2 (msg_view_at T D DOK msg i j n Hi Hj Hn)). apply Hm; assumption.
Qed.
Lemma load_pty parity pty0 : vecs D (d_PTY T D) pty0 -> length parity = t_R T -> Forall i8 parity ->
  exists pty, ldpc_load T D q (d_pty_at T D) parity pty0 = Ok pty /\ vecs D (d_PTY T D) pty /\ pty_view T D pty = parity.
Proof.
  intros Vm Lm Fm. rewrite (PTY_eq T D DOK) in *. destruct (load_ok T D q (d_pty_at T D) parity pty0 Vm Fm) as (pty & E2 & Vm' & Hm).
  { intros i j n Hi Hj Hn. rewrite Lm. apply (pty_view_at T D DOK [] i j n Hi Hj Hn). }
  exists pty. split; [exact E2|]. split; [exact Vm'|]. apply (list_ext _ _ 0%Z); [rewrite length_pty_view; lia|]. intros p Hpp. rewrite length_pty_view in Hpp.
  destruct (pty_pos T D DOK p Hpp) as (i & j & n & Hi & Hj & Hn & ->). rewrite (proj2 (pty_view_at T D DOK pty i j n Hi Hj Hn)). apply Hm; assumption.
Qed.
Lemma store_msg msg message : vecs D (d_MSG T D) msg -> length message = t_K T -> ldpc_store T D (length rows) (d_msg_at T D) msg message = Ok (msg_view T D msg).
Proof.
  intros Vm Lm. apply store_ok.
  - rewrite <- (MSG_eq T D DOK). exact Vm.
  - intros i j n Hi Hj Hn. rewrite Lm. apply (msg_view_at T D DOK msg i j n Hi Hj Hn).
  - intros p Hpp. rewrite Lm in Hpp. apply (msg_pos T D DOK p Hpp).
  - rewrite length_msg_view. lia.
Qed.
Lemma store_pty pty parity : vecs D (d_PTY T D) pty -> length parity = t_R T -> ldpc_store T D q (d_pty_at T D) pty parity = Ok (pty_view T D pty).
Proof.
  intros Vm Lm. apply store_ok.
  - rewrite <- (PTY_eq T D DOK). exact Vm.
  - intros i j n Hi Hj Hn. rewrite Lm. apply (pty_view_at T D DOK pty i j n Hi Hj Hn).
  - intros p Hpp. rewrite Lm in Hpp. apply (pty_pos T D DOK p Hpp).
  - rewrite length_pty_view. lia.
Qed.
(** every cell of the message array holds a position *)
Lemma cell_view x n : x < d_MSG T D -> n < D -> exists p, p < t_K T /\ forall m, nth p (msg_view T D m) 0%Z = lane m x n.
Proof.
  intros Hx Hn. rewrite (MSG_eq T D DOK) in Hx. pose proof (W_pos T D DOK) as HW.
  assert (x / W < length rows) as A by (apply Nat.div_lt_upper_bound; lia). pose proof (Nat.mod_upper_bound x W ltac:(lia)) as B.
  exists (d_msg_at T D (x / W) (x mod W) n). split; [apply (msg_view_at T D DOK [] _ _ _ A B Hn)|]. intros m. rewrite (proj2 (msg_view_at T D DOK m _ _ _ A B Hn)). f_equal. symmetry. apply Nat.div_mod. lia.
Qed.
Definition turned_by (c x y : list Z) : Prop := length y = length x /\ forall p, p < length x -> nth p y 0%Z = (nth p c 0 * nth p x 0)%Z.
Lemma lane_zero y n : lane (repeat (vzero D) (d_BNL T D)) y n = 0%Z.
Proof.
  unfold lane. destruct (Nat.lt_ge_cases y (d_BNL T D)) as [L|L].
  - rewrite (nth_indep _ [] (vzero D)) by (rewrite repeat_length; exact L). rewrite nth_repeat. unfold vzero, vdup. destruct (Nat.lt_ge_cases n D) as [L2|L2]; [apply nth_repeat|apply nth_overflow; rewrite repeat_length; exact L2].
  - rewrite (nth_overflow (repeat _ _)) by (rewrite repeat_length; exact L). destruct n; reflexivity.
Qed.
Lemma zero_vecs : vecs D (d_BNL T D) (repeat (vzero D) (d_BNL T D)).
Proof.
  split; [apply repeat_length|]. intros y Hy. rewrite (nth_indep _ [] (vzero D)) by (rewrite repeat_length; exact Hy). rewrite nth_repeat. apply vec_dup. unfold i8. lia.
Qed.

Lemma starts_same wd message parity s s' : starts wd message parity s -> starts wd message parity s' -> s = s'.
Proof.
  intros ((Vb & Vm & Vp & _) & A1 & A2 & A3 & A4) ((Vb' & Vm' & Vp' & _) & B1 & B2 & B3 & B4). destruct s as [b m p w], s' as [b' m' p' w']. cbn [ls_bnl ls_msg ls_pty ls_wd] in *. f_equal; [| | |congruence].
  - eapply vecs_ext; [exact Vb|exact Vb'|]. intros x n _ _. rewrite A3, B3. reflexivity.
  - eapply vecs_ext; [exact Vm|exact Vm'|]. intros x n Hx Hn. destruct (cell_view x n Hx Hn) as (p0 & _ & E). rewrite <- !E. congruence.
  - eapply vecs_ext; [exact Vp|exact Vp'|]. intros x n Hx Hn. rewrite (PTY_eq T D DOK) in Hx. pose proof (W_pos T D DOK) as HW.
    assert (x / W < q) as A by (apply Nat.div_lt_upper_bound; lia). pose proof (Nat.mod_upper_bound x W ltac:(lia)) as B.
    pose proof (proj2 (pty_view_at T D DOK p _ _ _ A B Hn)) as E1. pose proof (proj2 (pty_view_at T D DOK p' _ _ _ A B Hn)) as E2. rewrite <- Nat.div_mod in E1, E2 by lia. rewrite <- E1, <- E2. congruence.
Qed.
Lemma calm_of s0 n t i j s : never_saturates T D BETA C s0 n -> t < 0 + n -> (forall t2 s2, t2 <= t -> seen T D BETA C s0 t2 0 0 s2 -> ~ clean T D s2) -> i < q -> j < W ->
  seen T D BETA C s0 t i j s -> calm T D BETA C s i j.
Proof.
  intros HN Ht HNC Hi Hj Se. pose proof (seen_after _ _ _ _ _ Se) as (_ & E). pose proof (W_pos T D DOK) as HW. pose proof (ok_q T OK) as Hq.
  assert ((t * q + i) * W + j < n * (q * W)) as Hm.
  { assert (t * q + i + 1 <= n * q) as A by nia. assert ((t * q + i + 1) * W <= n * q * W) as B by (apply Nat.mul_le_mono_r; exact A). lia. }
  specialize (HN _ s Hm).
  assert (((t * q + i) * W + j) / W = t * q + i) as E1 by (rewrite Nat.div_add_l by lia; rewrite Nat.div_small by lia; lia).
  assert ((t * q + i) mod q = i) as E2 by (rewrite Nat.add_comm, Nat.mod_add by lia; apply Nat.mod_small; exact Hi).
  assert (((t * q + i) * W + j) mod W = j) as E3 by (rewrite Nat.add_comm, Nat.mod_add by lia; apply Nat.mod_small; exact Hj).
  rewrite E1, E2, E3 in HN.
  assert (unsaturated T D BETA C s i j) as U.
  { apply HN; [|exact E]. intros t2 s2 Hle E4. apply (HNC t2).
    - apply Nat.nlt_ge. intros HH. assert ((t + 1) * (q * W) <= t2 * (q * W)) as A by (apply Nat.mul_le_mono_r; lia). assert (i * W + j < q * W) as B by (assert ((i + 1) * W <= q * W) as B by (apply Nat.mul_le_mono_r; lia); lia). lia.
    - destruct (seen_prefix _ _ _ _ _ Se t2) as (s3 & S3).
      + apply Nat.nlt_ge. intros HH. assert ((t + 1) * (q * W) <= t2 * (q * W)) as A by (apply Nat.mul_le_mono_r; lia). assert (i * W + j < q * W) as B by (assert ((i + 1) * W <= q * W) as B by (apply Nat.mul_le_mono_r; lia); lia). lia.
      + pose proof (seen_after _ _ _ _ _ S3) as (_ & E5). replace ((t2 * q + 0) * W + 0) with (t2 * (q * W)) in E5 by lia. rewrite E4 in E5. injection E5 as ->. exact S3. }
  intros k m Hk Hm' Hf.
  assert (forall x, link_value T D C s i j m x = fetched T D C (ls_msg s) (ls_pty s) i j x m) as EV.
  { intros x. unfold link_value, fetched, link_place, check_at. rewrite (data_links_cl T OK i Hi), (link_start_base T D OK i j Hi). reflexivity. }
  assert (forall x, old_message T D s i j m x = lane (ls_bnl s) (bbase T D i j + x) m) as EO by (intros x; unfold old_message; rewrite (start_base i j Hi); reflexivity).
  assert (forall x, incoming T D C s i j m x = arriving T D C (ls_bnl s) (ls_msg s) (ls_pty s) i j m x) as EI by (intros x; unfold incoming, arriving; rewrite EV, EO; reflexivity).
  assert (outgoing T D BETA C s i j m k = sent T D C BETA (ls_bnl s) (ls_msg s) (ls_pty s) i j m k) as ES.
  { unfold outgoing, sent, arrivals. rewrite EO, (data_links_cl T OK i Hi). do 2 f_equal. apply map_ext. exact EI. }
  specialize (U k m). rewrite (data_links_cl T OK i Hi) in U. specialize (U Hk Hm'). unfold link_unsaturated in U. rewrite (data_links_cl T OK i Hi), EV, EO, EI, ES in U.
  destruct U as [(U1 & U2)|U]; [destruct (Hf U1 U2)|exact U].
Qed.

Theorem decode_turned s0 o1 o2 cdata cparity m1 p1 m2 p2 trials :
  shaped T D o1 -> shaped T D o2 -> ls_wd o1 = ls_wd o2 ->
  length cdata = t_K T -> length cparity = t_R T -> Forall sg1 cdata -> Forall sg1 cparity -> satisfies T cdata cparity ->
  length m1 = t_K T -> length p1 = t_R T -> Forall i8 m1 -> Forall i8 p1 -> Forall i8 m2 -> Forall i8 p2 ->
  turned_by cdata m1 m2 -> turned_by cparity p1 p2 -> (- 2147483648 < trials <= 2147483647)%Z ->
  starts (ls_wd o1) m1 p1 s0 -> never_saturates T D BETA C s0 (Z.to_nat trials) ->
  exists o1' o2' m1' p1' m2' p2' r, ldpc_decode T D BETA C o1 m1 p1 trials = Ok (o1', m1', p1', r) /\ ldpc_decode T D BETA C o2 m2 p2 trials = Ok (o2', m2', p2', r) /\
    ls_wd o1' = ls_wd o2' /\ length m1' = t_K T /\ length p1' = t_R T /\ turned_by cdata m1' m2' /\ turned_by cparity p1' p2'.
Proof.
  intros (Vb1 & Vm1 & Vp1 & Lw1) (Vb2 & Vm2 & Vp2 & Lw2) Ew Lcd Lcp Fcd Fcp Sat Lm1 Lp1 Fm1 Fp1 Fm2 Fp2 (Lm2 & Tm) (Lp2 & Tp) Ht HS0 HNS.
  rewrite Lm1 in Lm2, Tm. rewrite Lp1 in Lp2, Tp.
  assert (forall l, Forall sg1 l -> Forall i8 l) as S8 by (intros l F; eapply Forall_impl; [|exact F]; intros a [-> | ->]; unfold i8; lia).
  destruct (load_msg cdata (ls_msg o1) Vm1 Lcd (S8 _ Fcd)) as (cm & _ & Vcm & Ecm).
  destruct (load_pty cparity (ls_pty o1) Vp1 Lcp (S8 _ Fcp)) as (cp & _ & Vcp & Ecp).
  destruct (load_msg m1 (ls_msg o1) Vm1 Lm1 Fm1) as (x1 & Ex1 & Vx1 & Wx1). destruct (load_pty p1 (ls_pty o1) Vp1 Lp1 Fp1) as (y1 & Ey1 & Vy1 & Wy1).
  destruct (load_msg m2 (ls_msg o2) Vm2 Lm2 Fm2) as (x2 & Ex2 & Vx2 & Wx2). destruct (load_pty p2 (ls_pty o2) Vp2 Lp2 Fp2) as (y2 & Ey2 & Vy2 & Wy2).
  assert (forall x n, x < d_MSG T D -> n < D -> sg1 (lane cm x n)) as Sm.
  { intros x n Hx Hn. destruct (cell_view x n Hx Hn) as (p & Hp & E). rewrite <- E, Ecm. rewrite Forall_forall in Fcd. apply Fcd, nth_In. lia. }
  assert (forall p, p < t_R T -> sg1 (nth p (pty_view T D cp) 0%Z)) as Sp by (intros p Hp; rewrite Ecp; rewrite Forall_forall in Fcp; apply Fcp, nth_In; lia).
  assert (forall p, p < t_R T -> check_prod T (msg_view T D cm) (pty_view T D cp) p = 1%Z) as HCW by (intros p Hp; rewrite Ecm, Ecp; exact (Sat p Hp)).
  set (z := repeat (vzero D) (d_BNL T D)) in *. set (s1 := mk_ls z x1 y1 (ls_wd o1)). set (s2 := mk_ls z x2 y2 (ls_wd o2)).
  assert (shaped T D s1) as Sh1 by (split; [exact zero_vecs|split; [exact Vx1|split; [exact Vy1|exact Lw1]]]).
  assert (shaped T D s2) as Sh2 by (split; [exact zero_vecs|split; [exact Vx2|split; [exact Vy2|exact Lw2]]]).
  assert (state_turned T D C cm cp s1 s2) as HR.
  { split; [exact Sh1|]. split; [exact Sh2|]. split; [exact Ew|]. split; [|split].
    - intros x n Hx Hn. destruct (cell_view x n Hx Hn) as (p & Hp & E). unfold s1, s2. cbn [ls_msg]. rewrite <- !E, Ecm, Wx1, Wx2. apply Tm. exact Hp.
    - intros p Hp. unfold s1, s2. cbn [ls_pty]. rewrite Ecp, Wy1, Wy2. apply Tp. exact Hp.
    - intros i j k n _ _ _ _. unfold s1, s2. cbn [ls_bnl]. unfold z. rewrite !lane_zero. lia. }
  assert (starts (ls_wd o1) m1 p1 s1) as HS1 by (split; [exact Sh1|]; split; [exact Wx1|]; split; [exact Wy1|]; split; [intros y n; apply lane_zero|reflexivity]).
  pose proof (starts_same _ _ _ _ _ HS0 HS1) as E01. rewrite E01 in HNS.
  destruct (iterate_turned cm cp Sm Sp HCW s1 (S (Z.to_nat trials)) 0 s1 s2 trials) as (s1' & s2' & r & E1 & E2 & R); [|intros; lia|apply seen_start|exact HR|exact Ht|reflexivity|].
  { intros t' i j s Hlt HNC Hi Hj Se. apply (calm_of s1 (Z.to_nat trials) t' i j s HNS); assumption. }
  destruct R as ((_ & Vx1' & Vy1' & _) & (_ & Vx2' & Vy2' & _) & Ew' & Rm & Rp & _).
  exists s1', s2', (msg_view T D (ls_msg s1')), (pty_view T D (ls_pty s1')), (msg_view T D (ls_msg s2')), (pty_view T D (ls_pty s2')), r.
  unfold ldpc_decode. rewrite !(clear_ok T D) by (apply Vb1 || apply Vb2). cbn [bind]. rewrite (blocks_eq T D DOK). rewrite Ex1, Ex2. cbn [bind]. rewrite Ey1, Ey2. cbn [bind].
  fold z. fold s1 s2. rewrite E1, E2. cbn [bind]. rewrite !store_msg by assumption. cbn [bind]. rewrite !store_pty by assumption. cbn [bind].
  split; [reflexivity|]. split; [reflexivity|]. split; [exact Ew'|]. split; [apply length_msg_view|]. split; [apply length_pty_view|]. split.
  - split; [rewrite !length_msg_view; reflexivity|]. intros p Hp. rewrite length_msg_view in Hp. rewrite !nth_msg_view by exact Hp. rewrite Rm.
    + f_equal. rewrite <- Ecm. rewrite nth_msg_view by exact Hp. reflexivity.
    + destruct (msg_pos T D DOK p Hp) as (i & j & n & Hi & Hj & Hn & ->). pose proof (W_pos T D DOK) as HW. rewrite (MSG_eq T D DOK).
      assert (forall a, d_msg_at T D i j n / M = a -> a < length rows) as Q; [|assert ((d_msg_at T D i j n mod M) mod W < W) by (apply Nat.mod_upper_bound; lia); specialize (Q _ eq_refl); nia].
      intros a <-. apply Nat.div_lt_upper_bound; [pose proof (ok_M T OK); lia|]. rewrite <- (ok_K T OK). exact Hp.
    + pose proof (W_pos T D DOK). pose proof (ok_M T OK). apply Nat.div_lt_upper_bound; [lia|]. rewrite <- (M_WD T D DOK). apply Nat.mod_upper_bound. lia.
  - split; [rewrite !length_pty_view; reflexivity|]. intros p Hp. rewrite length_pty_view in Hp. rewrite Rp by exact Hp. rewrite Ecp. reflexivity.
Qed.
End Turn.
