(** Proofs about Model_rs: correction of errors and erasures. *)
From Coq Require Import ZifyBool ZifyNat ZifyN Field.
From Verif Require Import Cpp Lib_list Proof_bits Model_gf Model_rs Spec_gf Spec_rs Lib_gf2lin Lib_gf2poly Lib_gf Lib_field Lib_poly Lib_rs Proof_gf Prop_gf Proof_gffield Proof_crs1 Proof_crs2 Proof_rs1 Proof_rs2 Proof_rs3 Proof_rs4 Proof_rs5 Proof_rs6.
Local Open Scope N_scope.

Lemma NoDup_same_length {A} (l m : list A) : NoDup l -> NoDup m -> (forall x, In x l <-> In x m) -> length l = length m.
Proof. intros H1 H2 H. apply Nat.le_antisymm; apply NoDup_incl_length; try assumption; intros x Hx; apply H; exact Hx. Qed.
Lemma NoDup_map_inj {A B} (f : A -> B) l : (forall x y, In x l -> In y l -> f x = f y -> x = y) -> NoDup l -> NoDup (map f l).
Proof.
  intros H ND. induction ND as [|x l Hx ND IH]; [constructor|]. cbn [map]. constructor.
  - intros Hin. apply in_map_iff in Hin. destruct Hin as (y & E & Hy). apply Hx. rewrite <- (H y x); [exact Hy|right; exact Hy|left; reflexivity|exact E].
  - apply IH. intros; apply H; try right; assumption.
Qed.
Lemma In_differing u v t : In t (differing u v) <-> (t < length u)%nat /\ nth t u 0 <> nth t v 0.
Proof.
  unfold differing. rewrite filter_In, in_seq. destruct (N.eqb_spec (nth t u 0) (nth t v 0)) as [E|E]; cbn [negb]; split; intros (H1 & H2); try discriminate; try contradiction; split; try lia; try assumption; reflexivity.
Qed.
Lemma NoDup_differing u v : NoDup (differing u v).
Proof. apply NoDup_filter, seq_NoDup. Qed.
Lemma In_errors_outside er u v t : In t (errors_outside er u v) <-> (t < length u)%nat /\ nth t u 0 <> nth t v 0 /\ ~ In (N.of_nat t) er.
Proof.
  unfold errors_outside. rewrite filter_In, In_differing. rewrite negb_true_iff. split.
  - intros ((H1 & H2) & H3). split; [exact H1|]. split; [exact H2|]. intros Hin. assert (existsb (N.eqb (N.of_nat t)) er = true) by (apply existsb_exists; exists (N.of_nat t); split; [exact Hin|apply N.eqb_refl]). congruence.
  - intros (H1 & H2 & H3). split; [auto|]. apply Bool.not_true_is_false. intros E. apply existsb_exists in E. destruct E as (x & Hx & E). apply N.eqb_eq in E. subst x. contradiction.
Qed.
Lemma NoDup_errors_outside er u v : NoDup (errors_outside er u v).
Proof. apply NoDup_filter, NoDup_differing. Qed.

(** the erased positions followed by the errors outside them *)
Definition located (er : list N) (u v : list N) : list nat := map N.to_nat er ++ errors_outside er u v.
Lemma In_located er u v t : In t (located er u v) <-> In (N.of_nat t) er \/ ((t < length u)%nat /\ nth t u 0 <> nth t v 0 /\ ~ In (N.of_nat t) er).
Proof.
  unfold located. rewrite in_app_iff, In_errors_outside, in_map_iff. split; (intros [H|H]; [left|right; exact H]).
  - destruct H as (x & <- & Hx). rewrite N2Nat.id. exact Hx.
  - exists (N.of_nat t). rewrite Nat2N.id. auto.
Qed.
Lemma NoDup_app' {A} (l m : list A) : NoDup l -> NoDup m -> (forall x, In x l -> ~ In x m) -> NoDup (l ++ m).
Proof.
  intros HL HM D. induction HL as [|x l Hx HL IH]; [exact HM|]. cbn. constructor.
  - rewrite in_app_iff. intros [H|H]; [contradiction|]. apply (D x); [left; reflexivity|exact H].
  - apply IH. intros y Hy. apply D. right. exact Hy.
Qed.
Lemma NoDup_located er u v : NoDup er -> NoDup (located er u v).
Proof.
  intros H. apply NoDup_app'.
  - apply NoDup_map_inj; [|exact H]. intros x y _ _ E. apply N2Nat.inj. exact E.
  - apply NoDup_errors_outside.
  - intros x Hx Hin. apply In_errors_outside in Hin. destruct Hin as (_ & _ & Hn). apply Hn. apply in_map_iff in Hx. destruct Hx as (y & <- & Hy). rewrite N2Nat.id. exact Hy.
Qed.

Section S.
Variable G : gf.
Hypothesis OK : gf_ok G.
Notation Q := (2 ^ gf_M G).
Notation Q1 := (2 ^ gf_M G - 1).
Notation F := (gf_fld G OK).
Notation I := (inn G OK : N -> car F).
Notation pl := (pl G OK).
Notation al := (al G OK).
Notation Xp := (Xp G OK).
Notation sq := (sq G OK).
Notation rv := (rv G OK).
Notation smallq := (Forall (fun x => x < Q)).
Notation Rp p := (fpow al (S p)).
Add Field FFr7 : (fth (gf_fld G OK)).
Let c2 : forall x : car F, fadd x x = f0 := C2 G OK.
Variables NR FCR : nat.
Hypothesis HNR : (1 <= NR)%nat.
Hypothesis HNQ : (NR < N.to_nat Q1)%nat.
Hypothesis HFCR : (FCR < N.to_nat Q1)%nat.
Notation syn := (syn G OK FCR).
Notation ymag := (ymag G OK NR FCR).
Notation corr := (corr G OK NR FCR).
Notation outcome := (outcome G OK NR FCR).
Notation isroot := (isroot G OK).
Notation found := (found G OK).
Notation gap := (gap G OK).

(** ** locators of two positions *)
Lemma gap_pair C (xa xb : car F) : nth 0 (pl C) f0 = f1 -> (forall i, (2 < i)%nat -> nth i (pl C) f0 = f0) -> xa <> f0 -> xb <> f0 -> xa <> xb ->
  eval (pl C) (finv xa) = f0 -> eval (pl C) (finv xb) = f0 ->
  (gap C 2 <-> fmul xa xb = fmul (I Q1) (fmul (fadd xa xb) (fadd xa xb))).
Proof.
  intros C0 Ch Na Nb Nab Ea Eb. rewrite (eval_bound F 3 (pl C)) in Ea, Eb by (intros i Hi; apply Ch; lia). cbn [fsum fpow] in Ea, Eb. rewrite C0 in Ea, Eb.
  unfold Proof_rs3.gap. set (k1 := nth 1 (pl C) f0) in *. set (k2 := nth 2 (pl C) f0) in *.
  assert (QA : forall x : car F, x <> f0 -> fadd (fadd (fadd f0 (fmul f1 f1)) (fmul k1 (fmul (finv x) f1))) (fmul k2 (fmul (finv x) (fmul (finv x) f1))) = f0 ->
     fadd (fmul x x) (fadd (fmul k1 x) k2) = f0).
  { intros x Hx E. transitivity (fmul (fmul x x) (fadd (fadd (fadd f0 (fmul f1 f1)) (fmul k1 (fmul (finv x) f1))) (fmul k2 (fmul (finv x) (fmul (finv x) f1))))).
    - field. exact Hx.
    - rewrite E. ring. }
  apply QA in Ea; [|exact Na]. apply QA in Eb; [|exact Nb]. clear QA.
  assert (E1 : k1 = fadd xa xb).
  { symmetry. apply (add_0_eq F c2). assert (Z : fmul (fadd xa xb) (fadd (fadd xa xb) k1) = f0).
    - assert (E0 : forall a b k z : car F, fmul (fadd a b) (fadd (fadd a b) k) = fadd (fadd (fadd (fmul a a) (fadd (fmul k a) z)) (fadd (fmul b b) (fadd (fmul k b) z))) (fsub (fadd (fmul a b) (fmul a b)) (fadd z z))) by (intros; ring).
      rewrite (E0 xa xb k1 k2), Ea, Eb, !c2. ring.
    - apply fmul_0 in Z. destruct Z as [Z|Z]; [|exact Z]. apply (add_0_eq F c2) in Z. contradiction. }
  assert (E2 : k2 = fmul xa xb).
  { symmetry. apply (add_0_eq F c2). etransitivity; [|exact Ea]. rewrite E1.
    transitivity (fadd (fadd (fmul xa xa) (fmul xa xa)) (fadd (fmul xa xb) k2)); [rewrite c2; ring|ring]. }
  assert (NZ : fadd xa xb <> f0) by (intros Z; apply (add_0_eq F c2) in Z; contradiction).
  rewrite E1, E2. split.
  - intros (_ & _ & E). rewrite <- E. assert (E0 : forall p s : car F, s <> f0 -> p = fmul (fdiv p (fmul s s)) (fmul s s)) by (intros; field; assumption). apply E0. exact NZ.
  - intros E. split; [reflexivity|]. split; [exact NZ|]. rewrite E. assert (E0 : forall p s : car F, s <> f0 -> fdiv (fmul p (fmul s s)) (fmul s s) = p) by (intros; field; assumption). apply E0. exact NZ.
Qed.

Section D.
Variables (len f : nat) (data parity er cw : list N).
Notation w := (word len data parity).
Notation n := (len + NR)%nat.
Notation off := (rs_K G NR - len)%nat.
Notation erf := (firstn f er).
Notation tpos := (located (firstn f er) cw (word len data parity)).
Hypothesis SD : smallq data.
Hypothesis SP : smallq parity.
Hypothesis LP : length parity = NR.
Hypothesis Hlen : (1 <= len <= rs_K G NR)%nat.
Hypothesis Hdata : (len <= length data)%nat.
Hypothesis Hf : (f <= length er)%nat.
Hypothesis HE : forall i, (i < f)%nat -> nth i er 0 < N.of_nat n.
Hypothesis SC : smallq cw.
Hypothesis LC : length cw = n.
Hypothesis CW : forall i, (i < NR)%nat -> syn cw i = f0.
Hypothesis ND : NoDup erf.
Let e := length (errors_outside erf cw w).
Hypothesis HC : (2 * e + f <= NR)%nat.
Notation Dv t := (fadd (I (nth t w 0)) (I (nth t cw 0))).
Notation XX k := (Xp (off + nth k tpos 0%nat)).
Notation WW k := (fmul (Dv (nth k tpos 0%nat)) (fpow (XX k) FCR)).

Lemma off_n : (off + n = N.to_nat Q1)%nat.
Proof. unfold rs_K in *. change (gf_N G) with Q1 in *. lia. Qed.
Lemma len_w : length w = n. Proof. rewrite length_word by exact Hdata. rewrite LP. reflexivity. Qed.
Lemma small_w : smallq w. Proof. unfold word. apply Forall_app. split; [apply Forall_firstn'; exact SD|exact SP]. Qed.
Lemma len_tpos : length tpos = (f + e)%nat.
Proof. unfold located. rewrite app_length, map_length, firstn_length. unfold e. lia. Qed.
Lemma erf_lt t : In (N.of_nat t) erf -> (t < n)%nat.
Proof.
  intros H. apply (In_nth _ _ 0) in H. destruct H as (i & Hi & E). rewrite firstn_length in Hi. rewrite nth_firstn' in E. replace (i <? f)%nat with true in E by lia.
  pose proof (HE i ltac:(lia)). lia.
Qed.
Lemma tpos_lt t : In t tpos -> (t < n)%nat.
Proof. intros H. apply In_located in H. destruct H as [H|(H & _)]; [apply erf_lt; exact H|lia]. Qed.
Lemma tpos_nd : NoDup tpos. Proof. apply NoDup_located. exact ND. Qed.
Lemma tpos_out t : (t < n)%nat -> ~ In t tpos -> nth t w 0 = nth t cw 0.
Proof.
  intros Ht H. destruct (N.eq_dec (nth t cw 0) (nth t w 0)) as [E|E]; [symmetry; exact E|]. exfalso. apply H. apply In_located.
  destruct (In_dec N.eq_dec (N.of_nat t) erf) as [H1|H1]; [left; exact H1|right]. split; [lia|]. split; assumption.
Qed.
Lemma X_neq k : XX k <> f0. Proof. apply Xp_neq. Qed.
Lemma X_inj i j : (i < f + e)%nat -> (j < f + e)%nat -> XX i = XX j -> i = j.
Proof.
  intros Hi Hj E. pose proof len_tpos. pose proof off_n. assert (Ti : (nth i tpos 0 < n)%nat) by (apply tpos_lt, nth_In; lia). assert (Tj : (nth j tpos 0 < n)%nat) by (apply tpos_lt, nth_In; lia).
  assert (E' : finv (XX i) = finv (XX j)) by (rewrite E; reflexivity). rewrite !(Xp_inv G OK) in E' by lia. apply (Rp_inj G OK ltac:(lia)) in E'; try lia.
  apply (proj1 (NoDup_nth tpos 0%nat) tpos_nd); lia.
Qed.
Lemma syn_located i : (i < NR)%nat -> syn w i = fsum (f + e) (fun k => fmul (WW k) (fpow (XX k) i)).
Proof.
  intros Hi. pose proof off_n as HO.
  transitivity (fsum n (fun t => fmul (Dv t) (fpow (Xp (off + t)) (FCR + i)))).
  - transitivity (fadd (syn w i) (syn cw i)); [rewrite (CW i Hi); ring|].
    rewrite (syn_sum G OK NR FCR HNR HNQ HFCR w i off) by (rewrite len_w; exact HO). rewrite (syn_sum G OK NR FCR HNR HNQ HFCR cw i off) by (rewrite LC; exact HO). rewrite len_w, LC, <- fsum_add.
    apply fsum_ext. intros t Ht. ring.
  - rewrite (fsum_support F n _ tpos tpos_nd).
    + rewrite len_tpos. apply fsum_ext. intros k Hk. rewrite fpow_add. ring.
    + apply Forall_forall. exact tpos_lt.
    + intros t Ht Hn. rewrite (tpos_out t Ht Hn), c2. ring.
Qed.
(** a received codeword is the transmitted one *)
Lemma syn_zero_same : (forall i, (i < NR)%nat -> syn w i = f0) -> w = cw.
Proof.
  intros Z. assert (V : forall k, (k < f + e)%nat -> WW k = f0).
  { intros k Hk. apply (vandermonde F (f + e) (fun k => WW k) (fun k => XX k) 0); try exact Hk.
    - intros i Hi. apply X_neq.
    - intros i j Hij E. apply X_inj in E; lia.
    - intros j Hj. rewrite <- syn_located by lia. apply Z. lia. }
  apply (list_ext _ _ 0); [rewrite len_w, LC; reflexivity|]. intros t Ht. rewrite len_w in Ht.
  destruct (In_dec Nat.eq_dec t tpos) as [H|H]; [|apply tpos_out; assumption].
  apply (In_nth _ _ 0%nat) in H. destruct H as (k & Hk & E). rewrite len_tpos in Hk. specialize (V k Hk). cbv beta in V. rewrite E in V.
  apply fmul_0 in V. destruct V as [V|V]; [|exfalso; revert V; apply fpow_neq, Xp_neq]. apply (add_0_eq F c2) in V.
  apply (I_inj G OK) in V; [exact V| |]; apply small_nth; try exact OK; [apply small_w|exact SC].
Qed.
Lemma located_model s er' : (forall i, (i < NR)%nat -> sq s i = syn w i) -> (forall i, (i < f)%nat -> nth i er' 0 = nth i er 0 + N.of_nat off) ->
  errmodel G OK NR s er' f e (fun k => WW k) (fun k => XX k).
Proof.
  intros QS HE'. split; [|split; [|split; [|split]]].
  - intros k Hk. rewrite HE' by exact Hk. f_equal. unfold located. rewrite app_nth1 by (rewrite map_length, firstn_length; lia).
    rewrite (nth_indep _ 0%nat (N.to_nat 0)) by (rewrite map_length, firstn_length; lia). rewrite map_nth, nth_firstn'. replace (k <? f)%nat with true by lia. lia.
  - intros k Hk. apply X_neq.
  - intros i j Hij E. apply X_inj in E; lia.
  - intros k Hk E. apply fmul_0 in E. destruct E as [E|E]; [|revert E; apply fpow_neq, Xp_neq]. apply (add_0_eq F c2) in E.
    assert (Hin : In (nth k tpos 0%nat) (errors_outside erf cw w)).
    { unfold located. rewrite app_nth2 by (rewrite map_length, firstn_length; lia). rewrite map_length, firstn_length. apply nth_In. change (length (errors_outside erf cw w)) with e. lia. }
    apply In_errors_outside in Hin. destruct Hin as (_ & Hd & _). apply Hd. symmetry. apply (I_inj G OK) in E; [exact E| |]; apply small_nth; try exact OK; [apply small_w|exact SC].
  - intros i Hi. rewrite QS by exact Hi. apply syn_located. exact Hi.
Qed.
(** the locations found are the located positions *)
Lemma magnitude_located s C er' f' z locs mags L deg : corr s er' f' z locs mags C L deg -> deg = L -> L = (f + e)%nat ->
  (forall i, (i < NR)%nat -> sq s i = syn w i) -> (forall k, (k < f + e)%nat -> eval (pl C) (finv (XX k)) = f0) ->
  forall t, In t tpos -> ymag s C deg (off + t) = Dv t.
Proof.
  intros (SCl & LCl & C0 & (HdL & HL) & Cd & Ch & HZ & _) EdL EL QS ER t Ht. pose proof off_n as HO. pose proof (tpos_lt t Ht) as Htn.
  apply (In_nth _ _ 0%nat) in Ht. destruct Ht as (k & Hk & E). rewrite len_tpos in Hk.
  unfold Proof_rs4.ymag. set (X := Xp (off + t)). destruct (Xp_Rp G OK (off + t) ltac:(lia)) as (XR & XR1). fold X in XR, XR1.
  assert (FO : omega G OK NR s C deg (Rp (off + t)) = fmul (fmul (finv X) (fmul (Dv t) (fpow X FCR))) (deriv F (pl C) (Rp (off + t)))).
  { pose proof (forney F c2 (f + e) (fun k => WW k) (fun k => XX k) (sq s) (pl C)) as FN.
    specialize (FN (fun k _ => X_neq k)). specialize (FN ltac:(intros i j Hij EE; apply X_inj in EE; lia)). specialize (FN ltac:(intros i Hi; apply Ch; lia)). specialize (FN ER).
    specialize (FN ltac:(intros i Hi; rewrite QS by lia; apply syn_located; lia)). specialize (FN k Hk). cbv beta in FN. rewrite E in FN. fold X in FN.
    rewrite <- XR. rewrite <- FN.
    unfold omega. destruct (Nat.le_gt_cases deg (NR - 1)) as [D|D].
    - rewrite Nat.min_l by exact D. replace (f + e)%nat with deg by lia. cbn [fsum]. rewrite (HZ deg) by lia. ring.
    - rewrite Nat.min_r by lia. replace (f + e)%nat with (S (NR - 1)) by lia. reflexivity. }
  assert (DN : deriv F (pl C) (Rp (off + t)) <> f0).
  { rewrite <- XR. unfold X. rewrite <- E. apply (deriv_neq F (f + e) (pl C) (fun k => finv (XX k))).
    - intros i Hi. apply Ch. lia.
    - rewrite C0. apply f1_neq_0.
    - intros i j Hij EE. assert (E2 : XX i = XX j) by (rewrite <- (finv_finv F (XX i)), <- (finv_finv F (XX j)), EE by apply X_neq; reflexivity). apply X_inj in E2; lia.
    - exact ER.
    - exact Hk. }
  rewrite FO. set (D := deriv F (pl C) (Rp (off + t))) in *.
  assert (P1 : fmul (fpow X FCR) (fpow (Rp (off + t)) FCR) = f1) by (rewrite <- fpow_mul, XR1; apply fpow_1).
  assert (E0 : forall x y p d r : car F, x <> f0 -> d <> f0 -> fmul (fmul x (fdiv (fmul (fmul (finv x) (fmul y p)) d) d)) r = fmul y (fmul p r)) by (intros; field; auto).
  rewrite E0; [rewrite P1; ring|apply Xp_neq|exact DN].
Qed.
Lemma root_iff C deg s er' f' z locs mags L : corr s er' f' z locs mags C L deg -> deg = L -> L = (f + e)%nat ->
  (forall k, (k < f + e)%nat -> eval (pl C) (finv (XX k)) = f0) ->
  NoDup (map (fun t => (off + t)%nat) tpos) /\ Forall (isroot C) (map (fun t => (off + t)%nat) tpos) /\ length (map (fun t => (off + t)%nat) tpos) = deg /\
  forall pos, found C deg locs pos -> forall p, In p pos <-> In p (map (fun t => (off + t)%nat) tpos).
Proof.
  intros (SCl & LCl & C0 & (HdL & HL) & Cd & Ch & HZ & _) EdL EL ER. pose proof off_n as HO.
  assert (N1 : NoDup (map (fun t => (off + t)%nat) tpos)) by (apply NoDup_map_inj; [intros; lia|apply tpos_nd]).
  assert (R1 : Forall (isroot C) (map (fun t => (off + t)%nat) tpos)).
  { apply Forall_forall. intros p Hp. apply in_map_iff in Hp. destruct Hp as (t & <- & Ht). pose proof (tpos_lt t Ht). split; [lia|].
    apply (In_nth _ _ 0%nat) in Ht. destruct Ht as (k & Hk & E). rewrite len_tpos in Hk. specialize (ER k Hk). rewrite E, (Xp_inv G OK) in ER by lia. exact ER. }
  assert (L1 : length (map (fun t => (off + t)%nat) tpos) = deg) by (rewrite map_length, len_tpos; lia).
  split; [exact N1|]. split; [exact R1|]. split; [exact L1|].
  intros pos (LPo & NDp & FRp & _).
  assert (INC : forall p, In p pos -> In p (map (fun t => (off + t)%nat) tpos)).
  { intros p Hp. destruct (In_dec Nat.eq_dec p (map (fun t => (off + t)%nat) tpos)) as [H|H]; [exact H|exfalso].
    assert (length (p :: map (fun t => (off + t)%nat) tpos) <= deg)%nat; [|cbn [length] in *; lia].
    apply (roots_le G OK ltac:(lia) C NR deg LCl HNQ ltac:(lia) C0 Ch).
    - constructor; assumption.
    - constructor; [|exact R1]. apply (proj1 (Forall_forall _ _) FRp). exact Hp. }
  intros p. split; [apply INC|]. apply (NoDup_length_incl NDp); [lia|exact INC].
Qed.

Lemma Xp_len t : (t < n)%nat -> Xp (off + t) = fpow al (n - 1 - t).
Proof. intros H. pose proof off_n. unfold Proof_rs1.Xp. f_equal. lia. Qed.
Lemma gap_iff C deg s er' f' z locs mags L : corr s er' f' z locs mags C L deg -> deg = L -> L = (f + e)%nat ->
  (forall k, (k < f + e)%nat -> eval (pl C) (finv (XX k)) = f0) ->
  (gap C deg <-> exists a b, a <> b /\ (forall t, In t tpos <-> t = a \/ t = b) /\ unlucky_pair (gf_M G) (gf_POLY G) n a b).
Proof.
  intros (SCl & LCl & C0 & (HdL & HL) & Cd & Ch & HZ & _) EdL EL ER. pose proof off_n as HO.
  assert (TW : forall t0 t1, t0 <> t1 -> In t0 tpos -> In t1 tpos -> deg = 2%nat -> (gap C deg <-> unlucky_pair (gf_M G) (gf_POLY G) n t0 t1)).
  { intros t0 t1 Hne H0 H1 D2. pose proof (tpos_lt _ H0) as B0. pose proof (tpos_lt _ H1) as B1.
    rewrite D2. rewrite (unlucky_I G OK). rewrite <- !Xp_len by assumption. 
    apply (gap_pair C); try apply Xp_neq; try assumption.
    - intros i Hi. apply Ch. lia.
    - intros E. assert (E' : finv (Xp (off + t0)) = finv (Xp (off + t1))) by (rewrite E; reflexivity). rewrite !(Xp_inv G OK) in E' by lia. apply (Rp_inj G OK ltac:(lia)) in E'; lia.
    - apply (In_nth _ _ 0%nat) in H0. destruct H0 as (k & Hk & E). rewrite len_tpos in Hk. rewrite <- E. apply ER. exact Hk.
    - apply (In_nth _ _ 0%nat) in H1. destruct H1 as (k & Hk & E). rewrite len_tpos in Hk. rewrite <- E. apply ER. exact Hk. }
  pose proof len_tpos as LT. split.
  - intros HG. pose proof HG as (D2 & _). assert (F2 : length tpos = 2%nat) by lia. clear LT.
    pose proof tpos_nd as NDt. destruct tpos as [|t0 [|t1 [|t2 l]]] eqn:ET; try discriminate F2. exists t0, t1.
    assert (Hne : t0 <> t1). { inversion NDt as [|? ? Hni _]. intros ->. apply Hni. left. reflexivity. }
    split; [exact Hne|]. split; [intros t; cbn [In]; intuition congruence|]. apply TW; [exact Hne|left; reflexivity|right; left; reflexivity|exact D2|exact HG].
  - intros (a & b & Hab & HT & HU). assert (L2 : length tpos = 2%nat).
    { rewrite (NoDup_same_length tpos [a; b]); [reflexivity|apply tpos_nd| |].
      - constructor; [cbn; intuition congruence|]. constructor; [intros []|constructor].
      - intros t. rewrite HT. cbn [In]. intuition congruence. }
    apply (TW a b); try assumption; [apply HT; auto|apply HT; auto|lia].
Qed.
Lemma differ_iff t : In t (differing cw w) -> In t tpos.
Proof.
  intros H. apply In_differing in H. destruct H as (H1 & H2). destruct (In_dec Nat.eq_dec t tpos) as [H|H]; [exact H|]. exfalso. apply H2. symmetry. apply tpos_out; [lia|exact H].
Qed.
Lemma decoded d' p' er' z : outcome len f data parity er d' p' er' z ->
  (forall a b, a <> b -> (forall t, In t tpos <-> t = a \/ t = b) -> ~ unlucky_pair (gf_M G) (gf_POLY G) n a b) ->
  word len d' p' = cw /\ z = Z.of_nat (length (differing cw w)).
Proof.
  intros (H1 & H2 & H3 & H4 & H5 & H6 & H7 & H8) LU. pose proof off_n as HO.
  assert (SAME : w = cw -> differing cw w = []).
  { intros ->. unfold differing. induction (seq 0 (length cw)) as [|h l IH]; [reflexivity|]. cbn [filter]. rewrite N.eqb_refl. exact IH. }
  destruct H8 as [(-> & -> & -> & Z)|(s & z0 & locs & mags & C & L & deg & Ls & QS & SN & CO & H8)].
  { pose proof (syn_zero_same Z) as E. rewrite (SAME E). split; [exact E|reflexivity]. }
  pose proof (located_model s er' QS H7) as EM. pose proof CO as (SCl & LCl & C0 & (HdL & HL) & Cd & Ch & HZ & _ & _ & GAP & NGAP & _ & ERR).
  destruct (ERR e _ _ EM HC) as (EL & EdL & ER). clear ERR EM.
  destruct (root_iff C deg _ _ _ _ _ _ _ CO EdL EL ER) as (N1 & R1 & L1 & RI).
  assert (NG : ~ gap C deg).
  { intros HG. apply (gap_iff C deg _ _ _ _ _ _ _ CO EdL EL ER) in HG. destruct HG as (a & b & Hab & HT & HU). apply (LU a b Hab HT HU). }
  specialize (NGAP NG _ N1 R1 L1).
  assert (D1 : (1 <= deg)%nat).
  { destruct (Nat.eq_dec deg 0) as [D0|]; [exfalso|lia]. destruct SN as (i & Hi & HN). apply HN. rewrite syn_located by exact Hi. replace (f + e)%nat with 0%nat by lia. reflexivity. }
  destruct H8 as [(_ & _ & _ & Hz)|(_ & _ & pos & FO & H8)]; [lia|].
  specialize (RI pos FO). pose proof FO as (LPo & NDp & _ & _).
  destruct H8 as [(_ & _ & _ & EX)|(_ & (A1 & A2) & Ez)].
  { exfalso. apply Exists_exists in EX. destruct EX as (p & Hp & Hlt). apply RI in Hp. apply in_map_iff in Hp. destruct Hp as (t & <- & _). lia. }
  assert (Y : forall t, In t tpos -> ymag s C deg (off + t) = Dv t) by (apply (magnitude_located s C er' f z0 locs mags L deg CO EdL EL QS ER)).
  assert (SW : smallq (word len d' p')) by (unfold word; apply Forall_app; split; [apply Forall_firstn'; exact H2|exact H4]).
  split.
  - apply (list_ext _ _ 0); [rewrite length_word by lia; lia|]. intros t Ht. rewrite length_word in Ht by lia.
    destruct (In_dec Nat.eq_dec t tpos) as [HT|HT].
    + assert (Hp : In (off + t)%nat pos) by (apply RI; apply in_map; exact HT).
      apply (In_nth _ _ 0%nat) in Hp. destruct Hp as (i & Hi & E). specialize (A1 i ltac:(lia)). rewrite E in A1. replace (off + t - off)%nat with t in A1 by lia.
      rewrite (Y t HT) in A1. apply (I_inj G OK); [apply small_nth; [exact OK|exact SW]|apply small_nth; [exact OK|exact SC]|]. rewrite A1.
      assert (E0 : forall a b : car F, fadd a (fadd a b) = fadd (fadd a a) b) by (intros; ring). rewrite E0, c2. ring.
    + rewrite A2; [apply tpos_out; [lia|exact HT]|]. intros i Hi E. apply HT. assert (Hp : In (nth i pos 0%nat) pos) by (apply nth_In; lia). apply RI in Hp.
      apply in_map_iff in Hp. destruct Hp as (t' & E' & Ht'). replace t with t' by lia. exact Ht'.
  - rewrite Ez. f_equal. rewrite <- (map_length (fun t => (off + t)%nat) (differing cw w)). apply NoDup_same_length.
    + apply NoDup_filter. exact NDp.
    + apply NoDup_map_inj; [intros; lia|apply NoDup_differing].
    + intros p. rewrite filter_In, RI. split.
      * intros (Hp & NZ). apply in_map_iff in Hp. destruct Hp as (t & <- & Ht). apply in_map. apply In_differing. split; [pose proof (tpos_lt t Ht); lia|].
        intros E. unfold nzb in NZ. rewrite (Y t Ht), E, c2 in NZ. destruct (fdec (@f0 F) f0) as [_|X]; [discriminate|apply X; reflexivity].
      * intros Hp. apply in_map_iff in Hp. destruct Hp as (t & <- & Ht). pose proof (differ_iff t Ht) as HT. split; [apply in_map; exact HT|].
        unfold nzb. rewrite (Y t HT). destruct (fdec (Dv t) f0) as [Z|_]; [exfalso|reflexivity]. apply (add_0_eq F c2) in Z. apply In_differing in Ht. destruct Ht as (_ & Ht). apply Ht.
        symmetry. apply (I_inj G OK) in Z; [exact Z| |]; apply small_nth; try exact OK; [apply small_w|exact SC].
Qed.
Lemma undecoded d' p' er' z a b : outcome len f data parity er d' p' er' z -> w <> cw ->
  a <> b -> (forall t, In t tpos <-> t = a \/ t = b) -> unlucky_pair (gf_M G) (gf_POLY G) n a b ->
  d' = data /\ p' = parity /\ z = (-1)%Z.
Proof.
  intros (H1 & H2 & H3 & H4 & H5 & H6 & H7 & H8) NE Hab HT HU.
  destruct H8 as [(-> & -> & -> & Z)|(s & z0 & locs & mags & C & L & deg & Ls & QS & SN & CO & H8)].
  { exfalso. apply NE. apply syn_zero_same. exact Z. }
  pose proof (located_model s er' QS H7) as EM. pose proof CO as (SCl & LCl & C0 & (HdL & HL) & Cd & Ch & HZ & _ & _ & GAP & NGAP & _ & ERR).
  destruct (ERR e _ _ EM HC) as (EL & EdL & ER).
  assert (HG : gap C deg) by (apply (gap_iff C deg _ _ _ _ _ _ _ CO EdL EL ER); exists a, b; auto). specialize (GAP HG).
  destruct H8 as [(-> & -> & Ez & _)|(Ez & _ & _)]; [subst z; auto|lia].
Qed.
End D.
End S.
