(** The list decoders on vectors of a back end follow the decoders on lists of lanes (Model_polar_listf.v): if the latter end, the former
    end with vectors of these lanes.  The soft values stay bounded, so they are numbers, where the minimum of a back end is exact. *)
From Coq Require Import ZifyBool ZifyNat Floats.SpecFloat.
From Verif Require Import Cpp Lib_sim Model_simd Model_sort Model_intrin Model_backend Model_polar Model_polar_list Model_polar_float Model_fsimd Model_polar_listf Model_polar_listg
  Spec_polar Spec_ieee Spec_simd Spec_polar_float
  Lib_list Lib_wht Lib_float Lib_float2 Proof_bits Proof_simd Proof_polar1 Proof_polar2 Proof_polar3 Proof_polar4 Proof_polar5 Proof_polarf2 Proof_ieee Proof_fsimd2 Proof_plist1 Proof_plf1.
Local Open Scope nat_scope.
Ltac Zify.zify_post_hook ::= idtac.

(** loops with an invariant that depends on the index *)
Lemma leads_loop_at {A B} (R : nat -> A -> B -> Prop) n : forall i f g a b, R i a b ->
  (forall k a b, i <= k < i + n -> R k a b -> leads (R (S k)) (f k a) (g k b)) -> leads (R (i + n)) (loop n i f a) (loop n i g b).
Proof.
  induction n as [|n IH]; intros i f g a b H F; cbn [loop]; [replace (i + 0) with i by lia; apply leads_ok; exact H|].
  apply (leads_bind (R (S i))); [apply F; [lia|exact H]|]. intros x y Rxy. replace (i + S n) with (S i + n) by lia. apply IH; [exact Rxy|]. intros k u v Hk. apply F. lia.
Qed.
Lemma leads_up {A B} (R : nat -> A -> B -> Prop) n f g a b : R 0 a b ->
  (forall k a b, k < n -> R k a b -> leads (R (S k)) (f k a) (g k b)) -> leads (R n) (for_up 0 n f a) (for_up 0 n g b).
Proof. intros H F. unfold for_up. rewrite Nat.sub_0_r. apply (leads_loop_at R n 0); [exact H|]. intros k x y Hk. apply F. lia. Qed.
Lemma leads_same {A B C} (Q : B -> C -> Prop) (x : res A) f g : (forall a, x = Ok a -> leads Q (f a) (g a)) -> leads Q (bind x f) (bind x g).
Proof. destruct x as [a| | |]; cbn [bind]; intros H; try (intros c E; discriminate). apply H. reflexivity. Qed.
(** reading: the element of both arrays at this place *)
Lemma leads_rd {A B C D} (R : A -> B -> Prop) (Q : C -> D -> Prop) l m i d f g : Forall2 R l m ->
  (forall b, i < length l -> R (nth i l d) b -> leads Q (f (nth i l d)) (g b)) -> leads Q (bind (rd l i) f) (bind (rd m i) g).
Proof.
  intros H F. pose proof (rel_rd R l m i H) as E. unfold rd in *. destruct (nth_error l i) as [x|] eqn:N; [|intros c E'; discriminate].
  destruct (nth_error m i) as [y|]; cbn [rel] in E; [|contradiction]. cbn [bind]. pose proof (nth_error_nth l i d N) as Ex. subst x. apply F; [|exact E].
  apply nth_error_Some. congruence.
Qed.
Lemma leads_wr {A B C D} (R : A -> B -> Prop) (Q : C -> D -> Prop) l m i x y f g : Forall2 R l m -> R x y ->
  (forall m', i < length l -> Forall2 R (upd l i x) m' -> leads Q (f (upd l i x)) (g m')) -> leads Q (bind (wr l i x) f) (bind (wr m i y) g).
Proof.
  intros H Rxy F. unfold wr. rewrite <- (Forall2_len _ _ _ H). destruct (Nat.ltb_spec i (length l)) as [C0|C0]; [|intros c E; discriminate]. cbn [bind].
  apply F; [exact C0|]. apply Forall2_upd; assumption.
Qed.
Lemma leads_wr1 {A B} (R : A -> B -> Prop) (l : list A) (m : list B) i x y : Forall2 R l m -> R x y -> leads (fun a b => i < length l /\ a = upd l i x /\ Forall2 R a b) (wr l i x) (wr m i y).
Proof.
  intros H Rxy. unfold wr. rewrite <- (Forall2_len _ _ _ H). destruct (Nat.ltb_spec i (length l)) as [C0|C0]; [|intros c E; discriminate].
  apply leads_ok. split; [exact C0|]. split; [reflexivity|]. apply Forall2_upd; assumption.
Qed.
Lemma leads_weaken {A B} (R Q : A -> B -> Prop) x y : (forall a b, R a b -> Q a b) -> leads R x y -> leads Q x y.
Proof. intros H L a E. destruct (L a E) as (b & Eb & Rab). eauto. Qed.
Lemma Forall_shuf (Q : spec_float -> Prop) W a mp : length a = W -> is_map W mp -> Forall Q a -> Forall Q (fv_shuf a mp).
Proof.
  intros La (Lm & Fm) Fa. unfold fv_shuf. apply Forall_map. eapply Forall_impl; [|exact Fm]. intros i Hi. cbv beta in Hi |- *.
  replace (i <? Z.of_nat (length a))%Z with true by lia. rewrite Forall_forall in Fa. apply Fa. apply nth_In. lia.
Qed.

Lemma Forall_map2' {X Y Z'} (A : X -> Prop) (R : Y -> Prop) (B : Z' -> Prop) (f : X -> Y -> Z') a : (forall x y, A x -> R y -> B (f x y)) -> forall b, Forall A a -> Forall R b -> Forall B (map2 f a b).
Proof. intros H. unfold map2. induction a as [|x a IH]; intros [|y b] Fa Fb; cbn; try constructor; inversion Fa; inversion Fb; subst; auto. Qed.

Section Sim.
Variables (prec emax ub : Z) (W : nat).
Hypothesis Hp : (1 < prec)%Z.
Hypothesis He : (prec < emax)%Z.
Hypothesis HW : 1 <= W.
Hypothesis HU : (Z.of_nat W <= 2 ^ ub)%Z.
Context {V : Type} (Q : list_ops V).
Notation P := (lo_polar Q).
Notation Pf := (opsfv prec emax W).
Notation fl := (lo_lanes Q).
Notation emin := (emin prec emax).
Notation valid x := (valid_binary prec emax x = true).
Variables (okv : V -> Prop) (T : Z) (level : nat).
Hypothesis T1 : (emin <= T - Z.of_nat level)%Z.
Hypothesis T2 : (T <= emax - 1)%Z.

(** a vector with these lanes *)
Definition Rv (x : list spec_float) (v : V) : Prop := okv v /\ fl v = x.
Notation number x := (is_nan x = false).
Hypothesis Hlen : forall v, okv v -> length (fl v) = W.
Hypothesis Hval : forall v, okv v -> Forall (fun x => valid x) (fl v).
Hypothesis Hone : Rv (p_one Pf) (p_one P).
Hypothesis Hmul : forall a b, okv a -> okv b -> Rv (p_mul Pf (fl a) (fl b)) (p_mul P a b).
Hypothesis Hprod : forall a b, okv a -> okv b -> Forall (fun x => number x) (fl a) -> Forall (fun x => number x) (fl b) -> Rv (p_prod Pf (fl a) (fl b)) (p_prod P a b).
Hypothesis Hmadd : forall h a b, okv h -> okv a -> okv b -> Rv (p_madd Pf (fl h) (fl a) (fl b)) (p_madd P h a b).
Hypothesis Hdup : forall x, valid x -> number x -> Rv (repeat x W) (lo_dup Q x).
Hypothesis Hmake : forall l, length l = W -> Forall (hardf prec) l -> Rv l (lo_make Q l).
Hypothesis Hshuf : forall a m, okv a -> is_map W m -> Rv (fv_shuf (fl a) m) (lo_shuf Q a m).
Hypothesis Hmshuf : forall a m, is_map W a -> is_map W m -> lo_mshuf Q a m = vshuf a m.

(** ** Bounds *)
Notation small k := (at_most emin (T - Z.of_nat k)).
Notation hard := (Forall (hardf prec)).
Lemma hard_mul k h x : hardf prec h -> valid x -> at_most emin k x -> at_most emin k (SFmul prec emax h x).
Proof.
  intros [(s & ->)|[-> | ->]] Vx B.
  - destruct x; try contradiction; exact I.
  - rewrite mul_one by assumption. exact B.
  - rewrite mul_minus_one by assumption. destruct x; exact B.
Qed.
Lemma small_up k x : S k <= level -> small (S k) x -> small k x.
Proof.
  intros Hk. destruct x; cbn [at_most]; auto. intros H. etransitivity; [exact H|]. apply Z.pow_le_mono_r; lia.
Qed.
Lemma prod_small k a b : S k <= level -> Forall (fun x => valid x) a -> Forall (fun x => valid x) b -> Forall (small (S k)) a -> Forall (small (S k)) b -> Forall (small k) (p_prod Pf a b).
Proof.
  intros Hk Va Vb Fa Fb. cbn [p_prod opsfv]. unfold lanes2; fold (@map2 spec_float spec_float spec_float).
  assert (SG : forall l, hard (map (signumf prec emax) l)).
  { intros l. apply Forall_map. apply Forall_forall. intros x _. rewrite signumf_ok by assumption. apply hardf_emb; [assumption|]. apply fsgn_tern. }
  assert (AB : forall l, Forall (fun x => valid x) l -> Forall (small (S k)) l -> Forall (fun x => valid x /\ small (S k) x) (map SFabs l)).
  { intros l Vl Fl. apply Forall_map. apply Forall_and.
    - eapply Forall_impl; [|exact Vl]. intros x Hx. cbv beta in *. rewrite valid_abs. exact Hx.
    - eapply Forall_impl; [|exact Fl]. intros x Hx. destruct x; exact Hx. }
  apply (Forall_map2' (hardf prec) (fun x => valid x /\ small (S k) x)).
  - intros x y Hx (Vy & By). apply small_up; [exact Hk|]. apply hard_mul; assumption.
  - apply (Forall_map2' (hardf prec) (hardf prec)); try apply SG. intros x y Hx Hy. apply mulf_ok; assumption.
  - apply (Forall_map2' (fun x => valid x /\ small (S k) x) (fun x => valid x /\ small (S k) x)); [|apply AB; assumption..].
    intros x y (V1 & B1) (V2 & B2). split; [apply minf_valid; assumption|]. unfold minf. destruct (SFltb y x); assumption.
Qed.
Lemma madd_small k h a b : S k <= level -> hard h -> Forall (fun x => valid x) a -> Forall (fun x => valid x) b -> Forall (small (S k)) a -> Forall (small (S k)) b -> Forall (small k) (p_madd Pf h a b).
Proof.
  intros Hk Fh Va Vb Fa Fb. cbn [p_madd opsfv]. unfold lanes2; fold (@map2 spec_float spec_float spec_float).
  apply (Forall_map2' (fun x => valid x /\ small (S k) x) (fun x => valid x /\ small (S k) x)).
  - intros p q (V1 & B1) (V2 & B2). replace (T - Z.of_nat k)%Z with (T - Z.of_nat (S k) + 1)%Z by lia. apply add_le; try assumption; lia.
  - apply (Forall_map2' (hardf prec) (fun x => valid x /\ small (S k) x)); [|exact Fh|apply Forall_and; assumption].
    intros p q Hq (V2 & B2). split; [apply mul_valid; try assumption; apply hardf_valid; assumption|apply hard_mul; assumption].
  - apply Forall_and; assumption.
Qed.
Lemma mul_hard a b : hard a -> hard b -> hard (p_mul Pf a b).
Proof. intros A B. cbn [p_mul opsfv]. unfold lanes2; fold (@map2 spec_float spec_float spec_float). apply (Forall_map2' (hardf prec) (hardf prec)); try assumption. intros x y Hx Hy. apply mulf_ok; assumption. Qed.
Lemma one_hard : hard (p_one Pf).
Proof. cbn [p_one opsfv]. apply Forall_forall. intros x Hx. apply repeat_spec in Hx. subst x. rewrite of_int_emb by (assumption || (unfold tern; lia)). apply hardf_emb; [assumption|unfold tern; lia]. Qed.
Lemma small_number k l : Forall (small k) l -> Forall (fun x => number x) l.
Proof. intros H. eapply Forall_impl; [|exact H]. intros x Hx. destruct x; try reflexivity. contradiction. Qed.

(** ** States *)
Definition soft_ok (m : nat) (l : list (list spec_float)) : Prop := forall k j, m <= k <= level -> 2 ^ k <= j < 2 ^ S k -> Forall (small k) (nth j l []).
Definition hard_ok (h : nat) (l : list (list spec_float)) : Prop := forall j, j < h -> hard (nth j l []).
Record St (m h : nat) (s : list_statef) (g : list_stateg V) : Prop := mk_St {
  St_metric : lg_metric g = lf_metric s; St_W : length (lf_metric s) = W;
  St_msg : Forall2 Rv (lf_msg s) (lg_msg g);
  St_maps : lg_maps g = lf_maps s; St_count : lg_count g = lf_count s;
  St_is_map : forall j, j < lf_count s -> is_map W (nth j (lf_maps s) []);
  St_hard : Forall2 Rv (lf_hard s) (lg_hard g); St_soft : Forall2 Rv (lf_soft s) (lg_soft g);
  St_parity : Rv (lf_parity s) (lg_parity g); St_left : lg_left g = lf_left s;
  St_soft_ok : soft_ok m (lf_soft s); St_hard_ok : hard_ok h (lf_hard s) }.
(** what a node gives *)
Definition Nd (m h : nat) (r : list Z * list_statef) (q : list Z * list_stateg V) : Prop := fst q = fst r /\ is_map W (fst r) /\ St m h (snd r) (snd q).

Lemma soft_ok_le m m' l : m <= m' -> soft_ok m l -> soft_ok m' l.
Proof. intros H S k j Hk. apply S. lia. Qed.
Lemma St_le m h m' h' s g : m <= m' -> h' <= h -> St m h s g -> St m' h' s g.
Proof. intros Hm Hh S. destruct S. constructor; try assumption; [eapply soft_ok_le; eassumption|]. intros j Hj. apply St_hard_ok0. lia. Qed.
Lemma Rv_len x v : Rv x v -> length x = W.
Proof. intros (O & <-). apply Hlen. exact O. Qed.

Lemma left_leads m h s g : S m <= level -> St (S m) h s g -> leads (St m h) (list_leftf prec emax W (2 ^ S m) s) (list_leftg Q (2 ^ S m) g).
Proof.
  intros Hm S0. destruct S0. unfold list_leftf, list_leftg. replace (2 ^ S m / 2) with (2 ^ m) by (cbn [Nat.pow]; rewrite Nat.mul_comm, Nat.div_mul by lia; reflexivity).
  assert (EN : 2 ^ S m = 2 * 2 ^ m) by reflexivity. set (n := 2 ^ m) in *.
  apply (leads_bind (fun l l' => Forall2 Rv l l' /\ soft_ok m l)).
  - apply (leads_weaken (fun l l' => Forall2 Rv l l' /\ soft_ok (S m) l /\ forall j, n <= j < n + n -> Forall (small m) (nth j l []))).
    { intros a b (A1 & A2 & A3). split; [exact A1|]. intros k j Hk Hj. destruct (Nat.eq_dec k m) as [->|Ne]; [apply A3; fold n in Hj; lia|]. apply A2; [lia|exact Hj]. }
    apply (leads_up (fun i l l' => Forall2 Rv l l' /\ soft_ok (S m) l /\ forall j, n <= j < n + i -> Forall (small m) (nth j l []))).
    { split; [assumption|]. split; [assumption|]. intros j Hj. lia. }
    intros i l l' Hi (A1 & A2 & A3). apply (leads_rd Rv _ _ _ _ [] _ _ A1). intros va _ Ra. apply (leads_rd Rv _ _ _ _ [] _ _ A1). intros vb _ Rb.
    assert (G : forall j, 2 ^ S m <= j < 2 ^ S (S m) -> Forall (small (S m)) (nth j l [])) by (intros j Hj; apply A2; [lia|exact Hj]).
    assert (E2 : 2 ^ S (S m) = 4 * n) by (cbn [Nat.pow]; fold n; lia).
    pose proof (G (i + 2 ^ S m) ltac:(lia)) as Ga. pose proof (G (i + n + 2 ^ S m) ltac:(lia)) as Gb.
    destruct Ra as (Oa & Ea). destruct Rb as (Ob & Eb). rewrite <- Ea in Ga |- *. rewrite <- Eb in Gb |- *.
    assert (Rw := Hprod va vb Oa Ob (small_number _ _ Ga) (small_number _ _ Gb)).
    assert (Gw := prod_small m (fl va) (fl vb) Hm (Hval _ Oa) (Hval _ Ob) Ga Gb).
    eapply leads_weaken; [|apply (leads_wr1 Rv); [exact A1|exact Rw]]. intros a b (Hl & -> & A4). split; [exact A4|]. split.
    + intros k j Hk Hj. assert (i + n <> j). { assert (2 ^ S m <= 2 ^ k) by (apply Nat.pow_le_mono_r; lia). lia. } rewrite nth_upd_neq by assumption. apply A2; assumption.
    + intros j Hj. destruct (Nat.eq_dec (i + n) j) as [<-|Ne]; [rewrite nth_upd_eq by exact Hl; exact Gw|]. rewrite nth_upd_neq by exact Ne. apply A3. lia.
  - intros l l' (A1 & A2). apply leads_ok. constructor; assumption.
Qed.
Lemma right_leads m hoff lmap s g : S m <= level -> is_map W lmap -> St m (hoff + 2 ^ m) s g ->
  leads (St m (hoff + 2 ^ m)) (list_rightf prec emax W (2 ^ S m) hoff lmap s) (list_rightg Q (2 ^ S m) hoff lmap g).
Proof.
  intros Hm IM S0. destruct S0. unfold list_rightf, list_rightg. replace (2 ^ S m / 2) with (2 ^ m) by (cbn [Nat.pow]; rewrite Nat.mul_comm, Nat.div_mul by lia; reflexivity).
  assert (EN : 2 ^ S m = 2 * 2 ^ m) by reflexivity. set (n := 2 ^ m) in *.
  apply (leads_bind (fun l l' => Forall2 Rv l l' /\ soft_ok m l)).
  - apply (leads_up (fun i l l' => Forall2 Rv l l' /\ soft_ok m l)); [split; assumption|].
    intros i l l' Hi (A1 & A2). apply (leads_rd Rv _ _ _ _ [] _ _ St_hard0). intros vh _ Rh. apply (leads_rd Rv _ _ _ _ [] _ _ A1). intros va _ Ra. apply (leads_rd Rv _ _ _ _ [] _ _ A1). intros vb _ Rb.
    assert (G : forall j, 2 ^ S m <= j < 2 ^ S (S m) -> Forall (small (S m)) (nth j l [])) by (intros j Hj; apply A2; [lia|exact Hj]).
    assert (E2 : 2 ^ S (S m) = 4 * n) by (cbn [Nat.pow]; fold n; lia).
    pose proof (G (i + 2 ^ S m) ltac:(lia)) as Ga. pose proof (G (i + n + 2 ^ S m) ltac:(lia)) as Gb. pose proof (St_hard_ok0 (hoff + i) ltac:(lia)) as Gh.
    destruct Ra as (Oa & Ea). destruct Rb as (Ob & Eb). rewrite <- Ea in Ga |- *. rewrite <- Eb in Gb |- *. destruct Rh as (Oh & Eh). rewrite <- Eh in Gh |- *.
    destruct (Hshuf va lmap Oa IM) as (Osa & Esa). destruct (Hshuf vb lmap Ob IM) as (Osb & Esb). rewrite <- Esa, <- Esb.
    assert (Rw := Hmadd vh _ _ Oh Osa Osb).
    assert (Gw : Forall (small m) (p_madd Pf (fl vh) (fl (lo_shuf Q va lmap)) (fl (lo_shuf Q vb lmap)))).
    { apply madd_small; try assumption; try (apply Hval; assumption); rewrite ?Esa, ?Esb; apply (Forall_shuf _ W); try assumption; apply Hlen; assumption. }
    eapply leads_weaken; [|apply (leads_wr1 Rv); [exact A1|exact Rw]]. intros a b (Hl & -> & A4). split; [exact A4|].
    intros k j Hk Hj. destruct (Nat.eq_dec (i + n) j) as [<-|Ne]; [|rewrite nth_upd_neq by exact Ne; apply A2; assumption]. rewrite nth_upd_eq by exact Hl.
    assert (k = m). { destruct (Nat.eq_dec k m) as [->|N']; [reflexivity|]. assert (2 ^ S m <= 2 ^ k) by (apply Nat.pow_le_mono_r; lia). lia. } subst k. exact Gw.
  - intros l l' (A1 & A2). apply leads_ok. constructor; assumption.
Qed.
Lemma join_leads m hoff lmap rmap s g : is_map W lmap -> is_map W rmap -> St m (hoff + 2 ^ m + 2 ^ m) s g ->
  leads (Nd m (hoff + 2 ^ S m)) (list_joinf prec emax W (2 ^ S m) hoff lmap rmap s) (list_joing Q (2 ^ S m) hoff lmap rmap g).
Proof.
  intros IL IR S0. destruct S0. unfold list_joinf, list_joing. replace (2 ^ S m / 2) with (2 ^ m) by (cbn [Nat.pow]; rewrite Nat.mul_comm, Nat.div_mul by lia; reflexivity).
  replace (hoff + 2 ^ S m) with (hoff + 2 ^ m + 2 ^ m) by (cbn [Nat.pow]; lia). set (n := 2 ^ m) in *.
  apply (leads_bind (fun l l' => Forall2 Rv l l' /\ hard_ok (hoff + n + n) l)).
  - apply (leads_up (fun i l l' => Forall2 Rv l l' /\ hard_ok (hoff + n + n) l)); [split; assumption|].
    intros i l l' Hi (A1 & A2). apply (leads_rd Rv _ _ _ _ [] _ _ A1). intros va _ Ra. apply (leads_rd Rv _ _ _ _ [] _ _ A1). intros vb _ Rb.
    pose proof (A2 (hoff + i) ltac:(lia)) as Ga. pose proof (A2 (hoff + (i + n)) ltac:(lia)) as Gb. destruct Ra as (Oa & Ea). destruct Rb as (Ob & Eb). rewrite <- Ea in Ga |- *. rewrite <- Eb in Gb |- *.
    destruct (Hshuf va rmap Oa IR) as (Osa & Esa). rewrite <- Esa. assert (Rw := Hmul _ _ Osa Ob).
    eapply leads_weaken; [|apply (leads_wr1 Rv); [exact A1|exact Rw]]. intros a b (Hl & -> & A4). split; [exact A4|].
    intros j Hj. destruct (Nat.eq_dec (hoff + i) j) as [<-|Ne]; [|rewrite nth_upd_neq by exact Ne; apply A2; assumption]. rewrite nth_upd_eq by exact Hl.
    apply mul_hard; [|exact Gb]. rewrite Esa. apply (Forall_shuf _ W); try assumption. apply Hlen; assumption.
  - intros l l' (A1 & A2). apply leads_ok. unfold Nd. cbn [fst snd]. split; [apply Hmshuf; assumption|]. split; [apply lanes_vshuf; assumption|]. constructor; assumption.
Qed.

(** ** Leaves *)
Lemma rate0_leads m hoff s g : St m hoff s g -> leads (Nd m (hoff + 2 ^ m)) (list_rate0f prec emax ub W m hoff s) (list_rate0g prec emax ub W Q m hoff g).
Proof.
  intros S0. destruct S0. unfold list_rate0f, list_rate0g. set (n := 2 ^ m) in *.
  apply (leads_bind (fun l l' => Forall2 Rv l l' /\ hard_ok (hoff + n) l)).
  { apply (leads_up (fun i l l' => Forall2 Rv l l' /\ hard_ok (hoff + i) l)); [rewrite Nat.add_0_r; split; assumption|].
    intros i l l' Hi (A1 & A2). eapply leads_weaken; [|apply (leads_wr1 Rv); [exact A1|exact Hone]]. intros a b (Hl & -> & A4). split; [exact A4|].
    intros j Hj. destruct (Nat.eq_dec (hoff + i) j) as [<-|Ne]; [|rewrite nth_upd_neq by exact Ne; apply A2; lia]. rewrite nth_upd_eq by exact Hl. apply one_hard. }
  intros hd hd' (A1 & A2). apply (leads_bind (fun l l' => l' = l /\ length l = W)).
  { apply (leads_up (fun i l l' => l' = l /\ length l = W)); [split; assumption|]. intros i l l' Hi (-> & Ll).
    apply (leads_up (fun i l l' => l' = l /\ length l = W)); [split; auto|]. intros k l1 l2 Hk (-> & Ll1).
    apply (leads_rd Rv _ _ _ _ [] _ _ St_soft0). intros v _ (Ov & Ev). rewrite <- Ev. apply leads_same. intros x _. destruct (SFltb x _).
    - apply leads_same. intros y _. intros c E. exists c. split; [exact E|]. split; [reflexivity|]. apply wr_inv in E. destruct E as (_ & ->). rewrite length_upd. exact Ll1.
    - apply leads_ok. split; auto. }
  intros me me' (-> & Lm). rewrite iotaf_ok by assumption. cbn [bind]. apply leads_ok. unfold Nd. cbn [fst snd]. split; [reflexivity|]. split; [apply (iotaf_is_map ub W HW)|]. constructor; solve [assumption|reflexivity].
Qed.
Lemma select_same me fork a b c : list_selectf prec emax ub W me fork = Ok (a, b, c) -> list_selectg prec emax ub W Q me fork = Ok (a, b, lo_make Q c).
Proof.
  unfold list_selectf, list_selectg. destruct (insertion_sort_index _ _ _ _) as [[p f]| | |]; cbn [bind]; try discriminate.
  destruct (for_up 0 W _ me) as [me1| | |]; cbn [bind]; try discriminate.
  destruct (fill_lanesf W (fun k => p0 <- rdu p k ;; Ok (to_u ub _))) as [m1| | |]; cbn [bind]; try discriminate.
  destruct (fill_lanesf W _) as [h1| | |]; cbn [bind]; try discriminate. intros E. injection E as -> -> ->. reflexivity.
Qed.
Lemma select_leads me fork : length me = W -> length fork = 2 * W -> exists me1 mp hd,
  list_selectf prec emax ub W me fork = Ok (me1, mp, hd) /\ list_selectg prec emax ub W Q me fork = Ok (me1, mp, lo_make Q hd) /\
  length me1 = W /\ is_map W mp /\ hard hd /\ Rv hd (lo_make Q hd).
Proof.
  intros Lm Lf. pose proof (selectf_ok prec emax ub W Hp He HW HU me fork Lm Lf) as E. destruct (selectf_spec ub W HW fork Lf) as (S1 & (S2 & S2') & S3 & _).
  do 3 eexists. split; [exact E|]. split; [apply select_same; exact E|]. split; [exact S3|]. split; [exact S1|].
  assert (H : hard (map (hard_value prec) (self_bit W fork))).
  { apply Forall_map. eapply Forall_impl; [|exact S2']. intros x Hx. apply hardf_emb; [assumption|]. unfold tern. destruct Hx; lia. }
  split; [exact H|]. apply Hmake; [rewrite map_length; exact S2|exact H].
Qed.
Lemma rate1_leads hoff s g : St 0 hoff s g -> leads (Nd 0 (hoff + 1)) (list_rate1f prec emax ub W hoff s) (list_rate1g prec emax ub W Q hoff g).
Proof.
  intros S0. destruct S0. unfold list_rate1f, list_rate1g. rewrite St_metric0, St_count0, St_maps0.
  apply (leads_rd Rv _ _ _ _ [] _ _ St_soft0). intros v _ (Ov & Ev). rewrite <- Ev.
  rewrite (forkf_ok prec emax ub W HW _ _ St_W0 (Hlen v Ov)). cbn [bind].
  destruct (select_leads (lf_metric s) (fforkf prec emax W (lf_metric s) (fl v)) St_W0) as (me1 & mp & hd & E1 & E2 & L1 & M1 & H1 & R1); [apply length_fpairs|].
  rewrite E1, E2. cbn [bind].
  apply (leads_wr Rv); [exact St_msg0|exact R1|]. intros msg' Hc A1. apply leads_same. intros maps' E3. apply wr_inv in E3. destruct E3 as (Hc' & ->).
  apply (leads_wr Rv); [exact St_hard0|exact R1|]. intros hard' Hh A2. apply leads_ok. unfold Nd. cbn [fst snd]. split; [reflexivity|]. split; [exact M1|].
  constructor; cbn [lf_metric lf_msg lf_maps lf_count lf_hard lf_soft lf_parity lf_left lg_metric lg_msg lg_maps lg_count lg_hard lg_soft lg_parity lg_left]; try assumption; try reflexivity; [|congruence..|].
  - intros j Hj. destruct (Nat.eq_dec (lf_count s) j) as [<-|Ne]; [rewrite nth_upd_eq by exact Hc'; exact M1|]. rewrite nth_upd_neq by exact Ne. apply St_is_map0. lia.
  - intros j Hj. destruct (Nat.eq_dec hoff j) as [<-|Ne]; [rewrite nth_upd_eq by exact Hh; exact H1|]. rewrite nth_upd_neq by exact Ne. apply St_hard_ok0. lia.
Qed.
Lemma kill_length par fork f : parity_killf prec emax W par fork = Ok f -> length f = length fork.
Proof.
  intros E. assert (L : leads (fun a b : list spec_float => a = b /\ length a = length fork) (parity_killf prec emax W par fork) (parity_killf prec emax W par fork)).
  { unfold parity_killf. apply (leads_up (fun _ a b => a = b /\ length a = length fork)); [auto|]. intros k a b Hk (-> & La). apply leads_same. intros c _.
    destruct (SFltb c _); intros x Ex; exists x; (split; [exact Ex|]; split; [reflexivity|]); apply wr_inv in Ex; destruct Ex as (_ & ->); rewrite length_upd; exact La. }
  destruct (L f E) as (b & _ & _ & Lf). exact Lf.
Qed.
Lemma parity_rate1_leads stride hoff s g : St 0 hoff s g -> leads (Nd 0 (hoff + 1)) (parity_rate1f prec emax ub W stride hoff s) (parity_rate1g prec emax ub W Q stride hoff g).
Proof.
  intros S0. destruct S0. unfold parity_rate1f, parity_rate1g. rewrite St_metric0, St_count0, St_maps0, St_left0.
  apply (leads_rd Rv _ _ _ _ [] _ _ St_soft0). intros v _ (Ov & Ev). rewrite <- Ev.
  rewrite (forkf_ok prec emax ub W HW _ _ St_W0 (Hlen v Ov)). cbn [bind].
  apply (leads_bind (fun a b => Rv (fst a) (fst b) /\ snd b = snd a /\ length (snd a) = 2 * W)).
  { destruct (lf_left s =? 0).
    - destruct St_parity0 as (Op & Ep). rewrite Ep. apply leads_same. intros f Ef. apply leads_ok. cbn [fst snd]. split; [exact Hone|]. split; [reflexivity|]. rewrite (kill_length _ _ _ Ef). apply length_fpairs.
    - apply leads_ok. cbn [fst snd]. split; [exact St_parity0|]. split; [reflexivity|]. apply length_fpairs. }
  intros [par fork] [par' fork'] (Rp & Ef & Lf). cbn [fst snd] in *. subst fork'.
  destruct (select_leads (lf_metric s) fork St_W0 Lf) as (me1 & mp & hd & E1 & E2 & L1 & M1 & H1 & R1). rewrite E1, E2. cbn [bind].
  destruct (negb (lf_left s =? 0)).
  - apply (leads_wr Rv); [exact St_msg0|exact R1|]. intros msg' Hc A1. apply leads_same. intros maps' E3. apply wr_inv in E3. destruct E3 as (Hc' & ->).
    apply (leads_wr Rv); [exact St_hard0|exact R1|]. intros hard' Hh A2. apply leads_ok. unfold Nd. cbn [fst snd]. split; [reflexivity|]. split; [exact M1|].
    destruct Rp as (Op & Ep). destruct (Hshuf par' mp Op M1) as (Os & Es).
    constructor; cbn [lf_metric lf_msg lf_maps lf_count lf_hard lf_soft lf_parity lf_left lg_metric lg_msg lg_maps lg_count lg_hard lg_soft lg_parity lg_left]; try assumption; try reflexivity; [| |].
    + intros j Hj. destruct (Nat.eq_dec (lf_count s) j) as [<-|Ne]; [rewrite nth_upd_eq by exact Hc'; exact M1|]. rewrite nth_upd_neq by exact Ne. apply St_is_map0. lia.
    + rewrite <- Ep, <- Es. destruct R1 as (Oh & Eh). rewrite <- Eh at 1. apply Hmul; assumption.
    + intros j Hj. destruct (Nat.eq_dec hoff j) as [<-|Ne]; [rewrite nth_upd_eq by exact Hh; exact H1|]. rewrite nth_upd_neq by exact Ne. apply St_hard_ok0. lia.
  - destruct (Nat.eq_dec (lf_count s) 0) as [Z0|Z0].
    { rewrite Z0. intros c E. discriminate. }
    set (last := (Z.of_nat (lf_count s) - 1)%Z). unfold rdZ, wrZ. replace (last <? 0)%Z with false by lia. set (i := Z.to_nat last).
    apply (leads_rd Rv _ _ _ _ [] _ _ St_msg0). intros vm _ (Om & Em). rewrite <- Em.
    apply (leads_wr Rv); [exact St_msg0|apply Hshuf; assumption|]. intros msg' _ A1. apply leads_same. intros p Ep. unfold rd in Ep.
    destruct (nth_error (lf_maps s) i) as [p'|] eqn:N; [|discriminate]. injection Ep as ->. apply (nth_error_nth _ _ []) in N. assert (Mp : is_map W p) by (rewrite <- N; apply St_is_map0; lia).
    rewrite Hmshuf by assumption. apply leads_same. intros maps' E3. apply wr_inv in E3. destruct E3 as (Hc' & ->).
    apply (leads_wr Rv); [exact St_hard0|exact R1|]. intros hard' Hh A2. apply leads_ok. unfold Nd. cbn [fst snd]. split; [reflexivity|]. split; [exact M1|].
    constructor; cbn [lf_metric lf_msg lf_maps lf_count lf_hard lf_soft lf_parity lf_left lg_metric lg_msg lg_maps lg_count lg_hard lg_soft lg_parity lg_left]; try assumption; try reflexivity.
    + intros j Hj. destruct (Nat.eq_dec i j) as [<-|Ne]; [rewrite nth_upd_eq by exact Hc'; apply lanes_vshuf; assumption|]. rewrite nth_upd_neq by exact Ne. apply St_is_map0. exact Hj.
    + intros j Hj. destruct (Nat.eq_dec hoff j) as [<-|Ne]; [rewrite nth_upd_eq by exact Hh; exact H1|]. rewrite nth_upd_neq by exact Ne. apply St_hard_ok0. lia.
Qed.

(** ** The tree *)
Section Tree.
Variables (r1 : nat -> list_statef -> res (list Z * list_statef)) (r2 : nat -> list_stateg V -> res (list Z * list_stateg V)).
Hypothesis Hr : forall hoff s g, St 0 hoff s g -> leads (Nd 0 (hoff + 1)) (r1 hoff s) (r2 hoff g).

Lemma node_leads m hoff F1 F2 G1 G2 s g : S m <= level ->
  (forall s g, St m hoff s g -> leads (Nd m (hoff + 2 ^ m)) (F1 s) (F2 g)) ->
  (forall s g, St m (hoff + 2 ^ m) s g -> leads (Nd m (hoff + 2 ^ m + 2 ^ m)) (G1 s) (G2 g)) -> St (S m) hoff s g ->
  leads (Nd (S m) (hoff + 2 ^ S m))
    (s <- list_leftf prec emax W (2 ^ S m) s ;; '(lmap, s) <- F1 s ;; s <- list_rightf prec emax W (2 ^ S m) hoff lmap s ;; '(rmap, s) <- G1 s ;; list_joinf prec emax W (2 ^ S m) hoff lmap rmap s)
    (s <- list_leftg Q (2 ^ S m) g ;; '(lmap, s) <- F2 s ;; s <- list_rightg Q (2 ^ S m) hoff lmap s ;; '(rmap, s) <- G2 s ;; list_joing Q (2 ^ S m) hoff lmap rmap s).
Proof.
  intros Hm HF HG S0. apply (leads_bind (St m hoff)); [apply left_leads; assumption|]. clear s g S0. intros s g S0.
  apply (leads_bind (Nd m (hoff + 2 ^ m))); [apply HF; exact S0|]. clear s g S0. intros [lmap s] [lmap' g] (E1 & M1 & S0). cbn [fst snd] in *. subst lmap'.
  apply (leads_bind (St m (hoff + 2 ^ m))); [apply right_leads; assumption|]. clear s g S0. intros s g S0.
  apply (leads_bind (Nd m (hoff + 2 ^ m + 2 ^ m))); [apply HG; exact S0|]. clear s g S0. intros [rmap s] [rmap' g] (E2 & M2 & S0). cbn [fst snd] in *. subst rmap'.
  eapply leads_weaken; [|apply join_leads; assumption]. intros a b (A1 & A2 & A3). split; [exact A1|]. split; [exact A2|]. eapply St_le; [| |exact A3]; lia.
Qed.
Lemma small_leads M : forall hoff frozen s g, M <= level -> St M hoff s g ->
  leads (Nd M (hoff + 2 ^ M)) (list_tree_smallf prec emax ub W r1 M hoff frozen s) (list_tree_smallg prec emax ub W Q r2 M hoff frozen g).
Proof.
  induction M as [|m IH]; intros hoff frozen s g HM S0; [intros c E; discriminate|]. cbn [list_tree_smallf list_tree_smallg].
  destruct m as [|m'].
  - apply (node_leads 0 hoff (fun s => if (N.land frozen 1 =? 0)%N then r1 hoff s else list_rate0f prec emax ub W 0 hoff s)
      (fun s => if (N.land frozen 1 =? 0)%N then r2 hoff s else list_rate0g prec emax ub W Q 0 hoff s)
      (fun s => if (N.shiftr frozen 1 =? 0)%N then r1 (hoff + 1) s else list_rate0f prec emax ub W 0 (hoff + 1) s)
      (fun s => if (N.shiftr frozen 1 =? 0)%N then r2 (hoff + 1) s else list_rate0g prec emax ub W Q 0 (hoff + 1) s)); [lia| | |exact S0].
    + intros a b H. destruct (_ =? 0)%N; [apply Hr; exact H|apply rate0_leads; exact H].
    + intros a b H. destruct (_ =? 0)%N; [apply Hr; exact H|apply rate0_leads; exact H].
  - set (m := S m') in *. assert (EN : 2 ^ S m / 2 = 2 ^ m) by (cbn [Nat.pow]; rewrite Nat.mul_comm, Nat.div_mul by lia; reflexivity). rewrite !EN.
    set (mask := (N.shiftl 1 (N.of_nat (2 ^ m)) - 1)%N). set (lo := N.land frozen mask). set (hi := N.shiftr frozen (N.of_nat (2 ^ m))).
    apply (node_leads m hoff (fun s => if (lo =? mask)%N then list_rate0f prec emax ub W m hoff s else list_tree_smallf prec emax ub W r1 m hoff lo s)
      (fun s => if (lo =? mask)%N then list_rate0g prec emax ub W Q m hoff s else list_tree_smallg prec emax ub W Q r2 m hoff lo s)
      (fun s => if (hi =? mask)%N then list_rate0f prec emax ub W m (hoff + 2 ^ m) s else list_tree_smallf prec emax ub W r1 m (hoff + 2 ^ m) hi s)
      (fun s => if (hi =? mask)%N then list_rate0g prec emax ub W Q m (hoff + 2 ^ m) s else list_tree_smallg prec emax ub W Q r2 m (hoff + 2 ^ m) hi s)); [lia| | |exact S0].
    + intros a b H. destruct (_ =? mask)%N; [apply rate0_leads; exact H|apply IH; [lia|exact H]].
    + intros a b H. destruct (_ =? mask)%N; [apply rate0_leads; exact H|apply IH; [lia|exact H]].
Qed.
Lemma tree6_leads hoff frozen fo s g : 6 <= level -> St 6 hoff s g ->
  leads (Nd 6 (hoff + 2 ^ 6)) (list_tree6f prec emax ub W r1 hoff frozen fo s) (list_tree6g prec emax ub W Q r2 hoff frozen fo g).
Proof.
  intros HL S0. unfold list_tree6f, list_tree6g. change 64 with (2 ^ 6). change (2 ^ 6 / 2) with (2 ^ 5).
  apply (leads_bind (St 5 hoff)); [apply left_leads; assumption|]. clear s g S0. intros s g S0. apply leads_same. intros f0 _.
  apply (leads_bind (Nd 5 (hoff + 2 ^ 5))); [destruct (_ =? _)%N; [apply rate0_leads; exact S0|apply small_leads; [lia|exact S0]]|]. clear s g S0. intros [lmap s] [lmap' g] (E1 & M1 & S0). cbn [fst snd] in E1, M1, S0. subst lmap'.
  apply (leads_bind (St 5 (hoff + 2 ^ 5))); [apply right_leads; assumption|]. clear s g S0. intros s g S0. apply leads_same. intros f1 _.
  apply (leads_bind (Nd 5 (hoff + 2 ^ 5 + 2 ^ 5))); [destruct (_ =? _)%N; [apply rate0_leads; exact S0|apply small_leads; [lia|exact S0]]|]. clear s g S0. intros [rmap s] [rmap' g] (E2 & M2 & S0). cbn [fst snd] in E2, M2, S0. subst rmap'.
  eapply leads_weaken; [|apply join_leads; assumption]. intros a b (A1 & A2 & A3). split; [exact A1|]. split; [exact A2|]. eapply St_le; [| |exact A3]; lia.
Qed.
Lemma tree_leads d : forall hoff frozen fo s g, d + 6 <= level -> St (d + 6) hoff s g ->
  leads (Nd (d + 6) (hoff + 2 ^ (d + 6))) (list_treef prec emax ub W r1 d hoff frozen fo s) (list_treeg prec emax ub W Q r2 d hoff frozen fo g).
Proof.
  induction d as [|d IH]; intros hoff frozen fo s g HL S0; [apply tree6_leads; assumption|]. cbn [list_treef list_treeg]. change (S d + 6) with (S (d + 6)) in *.
  assert (EN : 2 ^ S (d + 6) / 2 = 2 ^ (d + 6)) by (cbn [Nat.pow]; rewrite Nat.mul_comm, Nat.div_mul by lia; reflexivity). rewrite !EN.
  apply (node_leads (d + 6) hoff (fun s => list_treef prec emax ub W r1 d hoff frozen fo s) (fun s => list_treeg prec emax ub W Q r2 d hoff frozen fo s)
    (fun s => list_treef prec emax ub W r1 d (hoff + 2 ^ (d + 6)) frozen (fo + 2 ^ (d + 6) / 32) s) (fun s => list_treeg prec emax ub W Q r2 d (hoff + 2 ^ (d + 6)) frozen (fo + 2 ^ (d + 6) / 32) s)); [exact HL| | |exact S0].
  - intros a b H. apply IH; [lia|exact H].
  - intros a b H. apply IH; [lia|exact H].
Qed.

(** ** The decoder *)
Lemma unroll_leads msg msg' maps count : Forall2 Rv msg msg' -> (forall j, j < count -> is_map W (nth j maps [])) ->
  leads (Forall2 Rv) (list_unrollf msg maps count) (list_unrollg Q msg' maps count).
Proof.
  intros HM HI. unfold list_unrollf, list_unrollg. destruct (Nat.eq_dec count 0) as [Z0|Z0]; [rewrite Z0; intros c E; discriminate|].
  apply leads_same. intros acc Ea. unfold rdZ in Ea. replace (Z.of_nat count - 1 <? 0)%Z with false in Ea by lia. unfold rd in Ea.
  destruct (nth_error maps (Z.to_nat (Z.of_nat count - 1))) as [a0|] eqn:N; [|discriminate]. injection Ea as ->. apply (nth_error_nth _ _ []) in N.
  assert (Ma : is_map W acc) by (rewrite <- N; apply HI; lia).
  apply (leads_bind (fun a b => fst b = fst a /\ is_map W (fst a) /\ Forall2 Rv (snd a) (snd b))).
  - unfold for_down. apply (leads_loop_at (fun _ a b => fst b = fst a /\ is_map W (fst a) /\ Forall2 Rv (snd a) (snd b)) (count - 1 - 0) 0).
    + cbn [fst snd]. auto.
    + intros k [a m] [b m'] Hk (E & M & F). cbn [fst snd] in *. subst b. set (i := count - 1 - 1 - k).
      apply (leads_rd Rv _ _ _ _ [] _ _ F). intros v _ (Ov & Ev). rewrite <- Ev. apply (leads_wr Rv); [exact F|apply Hshuf; assumption|]. intros m1 _ F1.
      apply leads_same. intros p Ep. unfold rd in Ep. destruct (nth_error maps i) as [p'|] eqn:N'; [|discriminate]. injection Ep as ->. apply (nth_error_nth _ _ []) in N'.
      assert (Mp : is_map W p) by (rewrite <- N'; apply HI; lia). rewrite Hmshuf by assumption. apply leads_ok. cbn [fst snd]. split; [reflexivity|]. split; [apply lanes_vshuf; assumption|exact F1].
  - intros [a m] [b m'] (E & M & F). cbn [fst snd] in *. apply leads_ok. exact F.
Qed.
Lemma fill_soft_leads (codeword : list spec_float) soft soft' : Forall2 Rv soft soft' ->
  Forall (fun x => valid x /\ small level x) (firstn (2 ^ level) codeword) ->
  leads (fun l l' => Forall2 Rv l l' /\ soft_ok level l) (for_up 0 (2 ^ level) (fun i soft => x <- rd codeword i ;; wr soft (2 ^ level + i) (repeat x W)) soft)
    (for_up 0 (2 ^ level) (fun i soft => x <- rd codeword i ;; wr soft (2 ^ level + i) (lo_dup Q x)) soft').
Proof.
  intros F0 FC. set (n := 2 ^ level) in *.
  eapply leads_weaken; [|apply (leads_up (fun i l l' => Forall2 Rv l l' /\ forall j, j < i -> Forall (small level) (nth (n + j) l []))); [split; [exact F0|intros j Hj; lia]|]].
  { intros a b (A1 & A2). split; [exact A1|]. intros k j Hk Hj. replace k with level in * by lia. fold n in Hj. replace j with (n + (j - n)) by lia. apply A2. cbn [Nat.pow] in Hj. fold n in Hj. lia. }
  intros i l l' Hi (A1 & A2). apply leads_same. intros x Ex. unfold rd in Ex. destruct (nth_error codeword i) as [x'|] eqn:N; [|discriminate]. injection Ex as ->.
  assert (In x (firstn n codeword)) as I.
  { apply nth_error_split in N. destruct N as (u & w & -> & <-). rewrite firstn_app. apply in_or_app. right. replace (n - length u) with (S (n - length u - 1)) by lia. left. reflexivity. }
  rewrite Forall_forall in FC. destruct (FC x I) as (Vx & Sx). assert (Nx : number x) by (destruct x; try reflexivity; contradiction).
  eapply leads_weaken; [|apply (leads_wr1 Rv); [exact A1|apply Hdup; assumption]]. intros a b (Hl & -> & A3). split; [exact A3|].
  intros j Hj. destruct (Nat.eq_dec i j) as [<-|Ne]; [rewrite nth_upd_eq by exact Hl; apply Forall_forall; intros y Hy; apply repeat_spec in Hy; rewrite Hy; exact Sx|].
  rewrite nth_upd_neq by lia. apply A2. lia.
Qed.
Definition same_lanes (r : list (list spec_float) * list (list spec_float) * list (list Z) * option (list Z) * list (list spec_float))
    (q : list V * list V * list (list Z) * option (list Z) * list V) : Prop :=
  let '(soft, hard, maps, rank, message) := r in let '(soft', hard', maps', rank', message') := q in
  Forall2 Rv soft soft' /\ Forall2 Rv hard hard' /\ maps' = maps /\ rank' = rank /\ Forall2 Rv message message'.
Lemma million_length : forall metric, (m <- wr (repeat (fzero prec emax) W) 0 (fzero prec emax) ;; for_up 1 W (fun k m => wr m k (million prec emax)) m) = Ok metric -> length metric = W.
Proof.
  intros metric E. rewrite wr_Ok in E by (rewrite repeat_length; lia). cbn [bind] in E.
  destruct (for_up_inv (fun _ (m : list spec_float) => length m = W) (fun k m => wr m k (million prec emax)) 1 W (upd (repeat (fzero prec emax) W) 0 (fzero prec emax))) as (m & E1 & L1); [exact HW| |rewrite length_upd; apply repeat_length|].
  - intros j m Hj Lm. rewrite wr_Ok by lia. eexists. split; [reflexivity|]. rewrite length_upd. exact Lm.
  - rewrite E in E1. injection E1 as ->. exact L1.
Qed.
Lemma decode_leads MAX_M first soft soft' hard0 hard0' maps rank message message' codeword frozen :
  Forall2 Rv soft soft' -> Forall2 Rv hard0 hard0' -> Forall2 Rv message message' ->
  Forall (fun x => valid x /\ small level x) (firstn (2 ^ level) codeword) ->
  leads same_lanes (list_decode_withf prec emax ub W r1 MAX_M first soft hard0 maps rank message codeword frozen level)
    (list_decode_withg prec emax ub W Q r2 MAX_M first soft' hard0' maps rank message' codeword frozen level).
Proof.
  intros F1 F2 F3 FC. unfold list_decode_withf, list_decode_withg. unfold assert_, require. destruct (level <=? MAX_M); [|intros c E; discriminate]. cbn [bind].
  rewrite wr_Ok by (rewrite repeat_length; lia). cbn [bind]. apply leads_same. intros metric Em.
  assert (Lm : length metric = W) by (apply million_length; rewrite wr_Ok by (rewrite repeat_length; lia); exact Em).
  destruct (level <=? 30); [|intros c E; discriminate]. cbn [bind].
  apply (leads_bind (fun l l' => Forall2 Rv l l' /\ soft_ok level l)); [apply fill_soft_leads; assumption|]. intros l l' (A1 & A2).
  assert (S0 : St level 0 (mk_lsf metric message maps 0 hard0 l (p_one Pf) first) (mk_lsg metric message' maps 0 hard0' l' (p_one P) first)).
  { constructor; try assumption; try reflexivity; try (intros j Hj; cbn [lf_count] in Hj; lia). }
  apply (leads_bind (Nd level (0 + 2 ^ level))).
  - destruct (Nat.eqb_spec level 5) as [E5|E5].
    + apply leads_same. intros f _. rewrite E5 at 1. rewrite E5 in S0 at 1. rewrite E5 at 1. apply small_leads; [lia|exact S0].
    + destruct (Nat.leb_spec 6 level) as [C6|C6]; [|intros c E; discriminate]. destruct (level <=? 16); [|intros c E; discriminate]. cbn [andb].
      replace level with (level - 6 + 6) in S0 at 1 by lia. pose proof (tree_leads (level - 6) 0 frozen 0 _ _ ltac:(lia) S0) as H. replace (level - 6 + 6) with level in H by lia. exact H.
  - intros [mp s] [mp' g] (E & M & S1). cbn [fst snd] in *. destruct S1. rewrite St_metric0, St_count0, St_maps0. apply leads_same. intros rk _.
    apply (leads_bind (Forall2 Rv)); [apply unroll_leads; assumption|]. intros m m' Fm. apply leads_ok. unfold same_lanes. split; [exact St_soft0|]. split; [exact St_hard0|]. split; [reflexivity|]. split; [reflexivity|exact Fm].
Qed.
End Tree.
(** PolarListDecoder and PolarParityDecoder *)
Lemma list_leads MAX_M soft soft' hard0 hard0' maps rank message message' codeword frozen :
  Forall2 Rv soft soft' -> Forall2 Rv hard0 hard0' -> Forall2 Rv message message' -> Forall (fun x => valid x /\ small level x) (firstn (2 ^ level) codeword) ->
  leads same_lanes (list_decodef prec emax ub W MAX_M soft hard0 maps rank message codeword frozen level)
    (list_decodeg prec emax ub W Q MAX_M soft' hard0' maps rank message' codeword frozen level).
Proof. intros. apply decode_leads; try assumption. exact rate1_leads. Qed.
Lemma parity_leads MAX_M stride first soft soft' hard0 hard0' maps rank message message' codeword frozen :
  Forall2 Rv soft soft' -> Forall2 Rv hard0 hard0' -> Forall2 Rv message message' -> Forall (fun x => valid x /\ small level x) (firstn (2 ^ level) codeword) ->
  leads same_lanes (parity_decodef prec emax ub W MAX_M soft hard0 maps rank message codeword frozen level stride first)
    (parity_decodeg prec emax ub W Q MAX_M soft' hard0' maps rank message' codeword frozen level stride first).
Proof. intros. apply decode_leads; try assumption. exact (parity_rate1_leads stride). Qed.
End Sim.
