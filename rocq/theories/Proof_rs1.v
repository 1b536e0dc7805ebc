(** Proofs about Model_rs: arithmetic through the field, arrays, Berlekamp-Massey and the erasure locator. *)
From Coq Require Import ZifyBool ZifyNat ZifyN Field.
From Verif Require Import Cpp Lib_list Model_gf Model_rs Spec_gf Lib_gf2lin Lib_gf2poly Lib_gf Lib_field Lib_poly Lib_rs Proof_gf Proof_gffield Proof_crs1 Proof_crs2.
Local Open Scope N_scope.

(** ** loops that fill an array *)
Lemma fill_u {A} (P : nat -> A -> Prop) lo hi (body : nat -> list (option A) -> res (list (option A))) u :
  (lo <= hi)%nat -> (hi <= length u)%nat -> (forall i u, (lo <= i < hi)%nat -> exists x, body i u = wru u i x /\ P i x) ->
  exists u', for_up lo hi body u = Ok u' /\ length u' = length u /\
    (forall i, (lo <= i < hi)%nat -> exists x, nth i u' None = Some x /\ P i x) /\
    (forall i, ~ (lo <= i < hi)%nat -> nth i u' None = nth i u None).
Proof.
  intros Hl Hu Hb.
  edestruct (for_up_inv (fun i (v : list (option A)) => length v = length u /\
     (forall j, (lo <= j < i)%nat -> exists x, nth j v None = Some x /\ P j x) /\ (forall j, ~ (lo <= j < i)%nat -> nth j v None = nth j u None))) as (u' & E & H).
  4: { exists u'. split; [exact E|exact H]. }
  - exact Hl.
  - intros i v Hi (L & V & W). cbv beta. destruct (Hb i v Hi) as (x & -> & Px). unfold wru. rewrite wr_Ok by lia. eexists. split; [reflexivity|].
    rewrite length_upd. split; [exact L|]. split.
    + intros j Hj. rewrite nth_upd. destruct (Nat.eqb_spec i j) as [<-|Hne].
      * replace (i <? length v)%nat with true by lia. cbn [andb]. exists x. auto.
      * cbn [andb]. apply V. lia.
    + intros j Hj. rewrite nth_upd. destruct (Nat.eqb_spec i j); [lia|]. cbn [andb]. apply W. lia.
  - split; [reflexivity|]. split; [intros; lia|]. reflexivity.
Qed.
Lemma fill_w {A} (d : A) (P : nat -> A -> Prop) lo hi (body : nat -> list A -> res (list A)) u :
  (lo <= hi)%nat -> (hi <= length u)%nat -> (forall i u, (lo <= i < hi)%nat -> exists x, body i u = wr u i x /\ P i x) ->
  exists u', for_up lo hi body u = Ok u' /\ length u' = length u /\
    (forall i, (lo <= i < hi)%nat -> P i (nth i u' d)) /\
    (forall i, ~ (lo <= i < hi)%nat -> nth i u' d = nth i u d).
Proof.
  intros Hl Hu Hb.
  edestruct (for_up_inv (fun i (v : list A) => length v = length u /\
     (forall j, (lo <= j < i)%nat -> P j (nth j v d)) /\ (forall j, ~ (lo <= j < i)%nat -> nth j v d = nth j u d))) as (u' & E & H).
  4: { exists u'. split; [exact E|exact H]. }
  - exact Hl.
  - intros i v Hi (L & V & W). cbv beta. destruct (Hb i v Hi) as (x & -> & Px). rewrite wr_Ok by lia. eexists. split; [reflexivity|].
    rewrite length_upd. split; [exact L|]. split.
    + intros j Hj. rewrite nth_upd. destruct (Nat.eqb_spec i j) as [<-|Hne].
      * replace (i <? length v)%nat with true by lia. exact Px.
      * cbn [andb]. apply V. lia.
    + intros j Hj. rewrite nth_upd. destruct (Nat.eqb_spec i j); [lia|]. cbn [andb]. apply W. lia.
  - split; [reflexivity|]. split; [intros; lia|]. reflexivity.
Qed.
Lemma settled_ok n u (P : nat -> N -> Prop) : (forall i, (i < n)%nat -> exists x, nth i u None = Some x /\ P i x) ->
  exists l, settled n u = Ok l /\ length l = n /\ forall i, (i < n)%nat -> nth i u None = Some (nth i l 0) /\ P i (nth i l 0).
Proof.
  intros H. unfold settled.
  edestruct (for_up_inv (fun i (l : list N) => length l = i /\ forall j, (j < i)%nat -> nth j u None = Some (nth j l 0) /\ P j (nth j l 0))) as (l & E & L & V).
  4: { exists l. split; [exact E|]. split; [exact L|exact V]. }
  - lia.
  - intros i l Hi (L & V). cbv beta. destruct (H i ltac:(lia)) as (x & Ex & Px). rewrite (rdu_nth _ _ _ Ex). cbn [bind]. eexists. split; [reflexivity|].
    split; [rewrite app_length, L; cbn; lia|]. intros j Hj. destruct (Nat.eq_dec j i) as [->|Hne].
    + rewrite app_nth2 by lia. rewrite L, Nat.sub_diag. cbn [nth]. auto.
    + rewrite app_nth1 by lia. apply V. lia.
  - split; [reflexivity|]. intros; lia.
Qed.

Section S.
Variable G : gf.
Hypothesis OK : gf_ok G.
Notation Q := (2 ^ gf_M G).
Notation Q1 := (2 ^ gf_M G - 1).
Notation gp := (gpow (gf_M G) (gf_POLY G)).
Notation gm := (gmul (gf_M G) (gf_POLY G)).
Let HM := ok_M G OK.
Let HP := ok_P G OK.
Let F := gf_fld G OK.
Notation I := (inn G OK : N -> car F).
Notation ridx := (ridx G OK).
Add Field FFr1 : (fth F).
Lemma C2 : forall x : car F, fadd x x = f0.
Proof. intros x. apply out_inj. cbn [F gf_fld fadd f0]. rewrite out_ga, N.lxor_nilpotent, out_gz. reflexivity. Qed.

(** ** values stand for field elements *)
Definition rv (x : N) (f : car F) : Prop := x < Q /\ I x = f.
Lemma rv_I x : x < Q -> rv x (I x). Proof. intros H. split; [exact H|reflexivity]. Qed.
Lemma rv_0 : rv 0 f0. Proof. split; [exact (Qpos G OK)|reflexivity]. Qed.
Lemma rv_1 : rv 1 f1. Proof. split; [apply Q1'; exact OK|reflexivity]. Qed.
Lemma rv_inj x y f : rv x f -> rv y f -> x = y.
Proof. intros (Hx & Ex) (Hy & Ey). apply (I_inj G OK); try assumption. congruence. Qed.
Lemma rv_nz x f : rv x f -> (nz x = false /\ f = f0) \/ (nz x = true /\ f <> f0).
Proof.
  intros (Hx & Ex). unfold nz. destruct (N.eqb_spec x 0) as [->|H]; [left|right]; (split; [reflexivity|]).
  - rewrite <- Ex. reflexivity.
  - intros E. apply H. apply (I_inj G OK); [exact Hx|exact (Qpos G OK)|]. rewrite Ex, E. reflexivity.
Qed.
Lemma rv_mkV i : N.of_nat i < Q -> mkValueI G i = Ok (N.of_nat i).
Proof. exact (crs_value_ok G OK i). Qed.
Lemma mkV0 : mkValueI G 0 = Ok 0. Proof. apply (rv_mkV 0). apply rv_0. Qed.
Lemma mkV1 : mkValueI G 1 = Ok 1. Proof. apply (rv_mkV 1). apply rv_1. Qed.
Lemma mkI i : N.of_nat i < Q1 -> mkIndexI G i = Ok (N.of_nat i).
Proof.
  intros H. unfold mkIndexI. assert (Q <= 2 ^ gf_w G) by (apply N.pow_le_mono_r; [discriminate|apply (ok_w G OK)]).
  rewrite wrap_small by lia. apply (mkI_ok G OK). exact H.
Qed.
Lemma rv_add a b f g : rv a f -> rv b g -> exists k, v_add G a b = Ok k /\ v_add_assign G a b = Ok k /\ rv k (fadd f g).
Proof.
  intros (Ha & Ea) (Hb & Eb). exists (N.lxor a b). unfold v_add_assign. rewrite okV_ok, !v_add_ok by assumption. repeat split.
  - apply lxor_lt; assumption.
  - rewrite I_xor by assumption. rewrite Ea, Eb. reflexivity.
Qed.
Lemma rv_mul a b f g : rv a f -> rv b g -> exists k, v_mul G a b = Ok k /\ rv k (fmul f g).
Proof.
  intros (Ha & Ea) (Hb & Eb). exists (gm a b). rewrite v_mul_ok by assumption. repeat split.
  - apply (gm_lt G OK). exact Hb.
  - rewrite I_mul by assumption. rewrite Ea, Eb. reflexivity.
Qed.
Lemma rv_vi a j f g : rv a f -> ridx j g -> exists k, vi_mul G a j = Ok k /\ v_mul_assign_i G a j = Ok k /\ rv k (fmul f g).
Proof.
  intros (Ha & Ea) (Hj & Ej). exists (gm a (gp j)). unfold v_mul_assign_i. rewrite okI_ok, !vi_mul_ok by assumption. repeat split.
  - apply (gm_lt G OK). apply (gp_lt G OK).
  - rewrite I_mul by (try assumption; apply (gp_lt G OK)). rewrite Ea, Ej. reflexivity.
Qed.
Lemma rv_iv j a f g : ridx j g -> rv a f -> exists k, iv_mul G j a = Ok k /\ rv k (fmul g f).
Proof.
  intros (Hj & Ej) (Ha & Ea). exists (gm (gp j) a). rewrite iv_mul_ok by assumption. repeat split.
  - apply (gm_lt G OK). exact Ha.
  - rewrite I_mul by (try assumption; apply (gp_lt G OK)). rewrite Ea, Ej. reflexivity.
Qed.
Lemma rv_div a b f g : rv a f -> rv b g -> g <> f0 -> exists k, v_div G a b = Ok k /\ rv k (fdiv f g).
Proof.
  intros (Ha & Ea) (Hb & Eb) Hg. exists (gm a (ginv G b)). rewrite v_div_ok; try assumption.
  - repeat split.
    + apply (gm_lt G OK). apply ginv_lt. exact OK.
    + rewrite I_mul, I_inv by (try assumption; apply ginv_lt; exact OK). rewrite Ea, Eb. change (fmul f (finv g) = fdiv f g). field. exact Hg.
  - intros ->. apply Hg. rewrite <- Eb. reflexivity.
Qed.
Lemma rv_fma_vvv a b c f g h : rv a f -> rv b g -> rv c h -> exists k, fma_vvv G a b c = Ok k /\ rv k (fadd (fmul f g) h).
Proof.
  intros (Ha & Ea) (Hb & Eb) (Hc & Ec). eexists. rewrite fma_vvv_ok by assumption. repeat split.
  - apply lxor_lt; [apply (gm_lt G OK); exact Hb|exact Hc].
  - rewrite I_xor, I_mul by (try assumption; apply (gm_lt G OK); exact Hb). rewrite Ea, Eb, Ec. reflexivity.
Qed.
Lemma rv_fma_ivv i b c f g h : ridx i f -> rv b g -> rv c h -> exists k, fma_ivv G i b c = Ok k /\ rv k (fadd (fmul f g) h).
Proof.
  intros (Ha & Ea) (Hb & Eb) (Hc & Ec). eexists. rewrite fma_ivv_ok by assumption. repeat split.
  - apply lxor_lt; [apply (gm_lt G OK); exact Hb|exact Hc].
  - rewrite I_xor, I_mul by (try assumption; try apply (gp_lt G OK); apply (gm_lt G OK); exact Hb). rewrite Ea, Eb, Ec. reflexivity.
Qed.
Lemma rv_fma_iiv i j c f g h : ridx i f -> ridx j g -> rv c h -> exists k, fma_iiv G i j c = Ok k /\ rv k (fadd (fmul f g) h).
Proof.
  intros (Ha & Ea) (Hb & Eb) (Hc & Ec). eexists. rewrite fma_iiv_ok by assumption. repeat split.
  - apply lxor_lt; [apply (gm_lt G OK); apply (gp_lt G OK)|exact Hc].
  - rewrite I_xor, I_mul by (try assumption; try apply (gp_lt G OK); apply (gm_lt G OK); apply (gp_lt G OK)). rewrite Ea, Eb, Ec. reflexivity.
Qed.
Lemma rv_value i f : ridx i f -> exists k, gf_value G i = Ok k /\ rv k f.
Proof. intros (Hi & Ei). exists (gp i). rewrite value_ok by assumption. repeat split; [apply (gp_lt G OK)|exact Ei]. Qed.
Lemma rv_index x f : rv x f -> f <> f0 -> exists k, gf_index G x = Ok k /\ ridx k f.
Proof.
  intros (Hx & Ex) Hf. destruct (ridx_index G OK x Hx) as (k & E & R).
  - intros ->. apply Hf. rewrite <- Ex. reflexivity.
  - exists k. rewrite <- Ex. auto.
Qed.
Lemma ridx_neq i f : ridx i f -> f <> f0.
Proof.
  intros (Hi & Ei) H. apply (gp_nz G OK i). apply (I_inj G OK); [apply (gp_lt G OK)|exact (Qpos G OK)|]. rewrite Ei, H. reflexivity.
Qed.
Lemma ridx_mul_a i j f g : ridx i f -> ridx j g -> exists k, i_mul G i j = Ok k /\ i_mul_assign G i j = Ok k /\ ridx k (fmul f g).
Proof. apply ridx_mul. Qed.
Lemma ridx_div_a i j f g : ridx i f -> ridx j g -> exists k, i_div G i j = Ok k /\ i_div_assign G i j = Ok k /\ ridx k (fdiv f g).
Proof.
  intros Hi Hj. destruct (ridx_div G OK i j f g Hi Hj) as (k & E & R). exists k. unfold i_div_assign.
  rewrite (okI_ok G OK j (proj1 Hj)), (okI_ok G OK i (proj1 Hi)). auto.
Qed.
(** the primitive element *)
Definition al : car F := I (gp 1).
Lemma I_gp i : I (gp (N.of_nat i)) = fpow al i.
Proof.
  induction i as [|i IH]; [reflexivity|]. rewrite Nat2N.inj_succ, <- N.add_1_l, <- (gp_add G OK), I_mul by apply (gp_lt G OK).
  rewrite IH. reflexivity.
Qed.
Lemma ridx_pow i : N.of_nat i < Q1 -> ridx (N.of_nat i) (fpow al i).
Proof. intros H. split; [exact H|apply I_gp]. Qed.
Lemma al_neq : al <> f0.
Proof. intros E. apply (gp_nz G OK 1). apply (I_inj G OK); [apply (gp_lt G OK)|exact (Qpos G OK)|]. exact E. Qed.
Lemma al_order : fpow al (N.to_nat Q1) = f1.
Proof. rewrite <- I_gp, N2Nat.id, (gp_Q1 G OK). reflexivity. Qed.
Lemma al_inj i j : N.of_nat i < Q1 -> N.of_nat j < Q1 -> fpow al i = fpow al j -> i = j.
Proof.
  intros Hi Hj E. rewrite <- !I_gp in E. apply I_inj in E; try apply (gp_lt G OK). apply (gp_inj G OK) in E; lia.
Qed.
Lemma ridx_inj i j f : ridx i f -> ridx j f -> i = j.
Proof.
  intros (Hi & Ei) (Hj & Ej). apply (gp_inj G OK); try assumption. apply (I_inj G OK); try apply (gp_lt G OK). congruence.
Qed.
Lemma al_ex (f : car F) : f <> f0 -> exists i, N.of_nat i < Q1 /\ f = fpow al i.
Proof.
  intros H. destruct (ridx_index G OK (out G f) (out_lt G f)) as (k & _ & (Hk & Ek)).
  - intros E. apply H. apply out_inj. rewrite E. symmetry. apply out_gz.
  - exists (N.to_nat k). rewrite N2Nat.id. split; [exact Hk|]. rewrite <- I_gp, N2Nat.id, Ek. rewrite inn_out. reflexivity.
Qed.

(** ** lists of values *)
Notation smallq := (Forall (fun x => x < Q)).
Definition pl (l : list N) : list (car F) := map I l.
Lemma nth_pl l i : nth i (pl l) f0 = I (nth i l 0).
Proof. unfold pl. change f0 with (I 0). apply map_nth. Qed.
Lemma small_nth l i : smallq l -> nth i l 0 < Q.
Proof.
  intros H. destruct (Nat.lt_ge_cases i (length l)) as [L|L]; [apply (proj1 (Forall_nth (fun x => x < Q) l) H); exact L|].
  rewrite nth_overflow by exact L. exact (Qpos G OK).
Qed.
Lemma rv_nth l i : smallq l -> rv (nth i l 0) (nth i (pl l) f0).
Proof. intros H. split; [apply small_nth; exact H|]. symmetry. apply nth_pl. Qed.
Lemma rd_rv l i : smallq l -> (i < length l)%nat -> exists x, rd l i = Ok x /\ rv x (nth i (pl l) f0).
Proof. intros H L. rewrite (rd_nth l i 0) by exact L. eexists. split; [reflexivity|]. apply rv_nth. exact H. Qed.
Lemma small_intro l : (forall i, (i < length l)%nat -> nth i l 0 < Q) -> smallq l.
Proof. intros H. apply (proj2 (Forall_nth (fun x => x < Q) l)). intros i d Hi. rewrite (nth_indep l d 0 Hi). apply H. exact Hi. Qed.
Lemma small_upd l i x : smallq l -> x < Q -> smallq (upd l i x).
Proof.
  intros H Hx. apply small_intro. intros j Hj. rewrite nth_upd. destruct (_ && _)%bool; [exact Hx|]. apply small_nth. exact H.
Qed.
Lemma small_repeat0 n : smallq (repeat 0 n).
Proof. apply small_intro. intros i Hi. rewrite nth_repeat. exact (Qpos G OK). Qed.

(** ** Berlekamp-Massey *)
Notation bm_inv := (bm_inv F).
Notation disc := (disc F).
Definition sq (s : list N) (j : nat) : car F := nth j (pl s) f0.
Lemma disc_loop C s n L : smallq C -> smallq s -> (L < length C)%nat -> (n < length s)%nat -> (L <= n)%nat ->
  nth 0 (pl C) f0 = f1 -> (forall i, (L < i)%nat -> nth i (pl C) f0 = f0) ->
  exists d, (d <- rd s n ;; for_up 1 (S L) (fun i d =>
     c <- rd C i ;; x <- (if (i <=? n)%nat then rd s (n - i) else Undef) ;;
     p <- v_mul G c x ;;
     v_add_assign G d p) d) = Ok d /\ rv d (disc (pl C) (sq s) n).
Proof.
  intros SC SS LC Ls HL H0 HD. destruct (rd_rv s n SS Ls) as (d0 & E0 & R0). rewrite E0. cbn [bind].
  edestruct (for_up_inv (fun i d => rv d (fsum i (fun i => fmul (nth i (pl C) f0) (sq s (n - i)))))) as (d & E & R).
  4: { exists d. split; [exact E|]. unfold Lib_rs.disc. rewrite (fsum_more F (S L) (S n)); [exact R|lia|].
       intros i Hi. rewrite HD by lia. ring. }
  - lia.
  - intros i d Hi Rd. cbv beta. destruct (rd_rv C i SC ltac:(lia)) as (c & Ec & Rc). rewrite Ec. cbn [bind].
    destruct (Nat.leb_spec i n); [|lia]. destruct (rd_rv s (n - i) SS ltac:(lia)) as (x & Ex & Rx). rewrite Ex. cbn [bind].
    destruct (rv_mul _ _ _ _ Rc Rx) as (p & Ep & Rp). rewrite Ep. cbn [bind]. destruct (rv_add _ _ _ _ Rd Rp) as (k & _ & Ek & Rk).
    exists k. split; [exact Ek|]. cbn [fsum]. exact Rk.
  - cbn [fsum]. rewrite Nat.sub_0_r, H0. unfold sq. replace (fadd f0 (fmul f1 (nth n (pl s) f0))) with (nth n (pl s) f0) by ring. exact R0.
Qed.

Definition bm_good (NR count : nat) (s : list N) (n : nat) (st : list N * list N * nat * nat) : Prop :=
  let '(C, B, L, m) := st in
  smallq C /\ length C = S NR /\ smallq B /\ length B = S NR /\ bm_inv (sq s) count n (pl C) (pl B) L m.

Lemma bm_step_ok NR count s n C B L m : smallq s -> length s = NR -> (count <= n < NR)%nat -> bm_good NR count s n (C, B, L, m) ->
  exists C' B' L' m', rs_bm_step G NR count s n (C, B, L, m) = Ok (C', B', L', m') /\ bm_good NR count s (S n) (C', B', L', m') /\
    (forall x, eval (pl C) x = f0 -> eval (pl B) x = f0 -> eval (pl C') x = f0 /\ eval (pl B') x = f0) /\
    ((L' = L /\ (disc (pl C) (sq s) n = f0 \/ n + count < 2 * L)%nat) \/ (disc (pl C) (sq s) n <> f0 /\ L' = (n + count + 1 - L)%nat)) /\
    Lib_rs.combine F (pl C') (pl C) (pl B) (disc (pl C) (sq s) n) m.
Proof.
  intros SS LS Hn (SC & LC & SB & LB & HI). pose proof HI as ((HL1 & HL2) & Hm & H0 & HD & HZ & lb & Elb & HB & HR).
  unfold rs_bm_step.
  destruct (disc_loop C s n L SC SS ltac:(lia) ltac:(lia) ltac:(lia) H0 HD) as (d & Ed & Rd).
  destruct (rd s n) as [d0| | |] eqn:Es; try discriminate. cbn [bind] in Ed |- *. rewrite Ed. cbn [bind].
  destruct (rv_nz _ _ Rd) as [(Nd & Zd)|(Nd & Zd)]; rewrite Nd; cbn [negb].
  { exists C, B, L, (S m). split; [reflexivity|]. split.
    - repeat (split; [assumption|]). apply bm_zero; assumption.
    - split; [auto|]. split; [left; auto|]. intros i. rewrite Zd. destruct (Nat.leb m i); ring. }
  destruct (fill_u (fun i x => rv x (nth i (pl C) f0)) 0 m (fun i T => c <- rd C i ;; wru T i c) (uninit N (S NR))) as (T1 & E1 & L1 & V1 & _).
  { lia. } { unfold uninit. rewrite repeat_length. lia. }
  { intros i u Hi. destruct (rd_rv C i SC ltac:(lia)) as (c & Ec & Rc). rewrite Ec. exists c. auto. }
  rewrite E1. cbn [bind].
  destruct (fill_u (fun i x => rv x (fadd (fmul (disc (pl C) (sq s) n) (nth (i - m) (pl B) f0)) (nth i (pl C) f0))) m (S NR)
      (fun i T => b <- rd B (i - m) ;; c <- rd C i ;; x <- fma_vvv G d b c ;; wru T i x) T1) as (T2 & E2 & L2 & V2 & W2).
  { lia. } { rewrite L1. unfold uninit. rewrite repeat_length. lia. }
  { intros i u Hi. destruct (rd_rv B (i - m) SB ltac:(lia)) as (b & Eb & Rb). rewrite Eb. cbn [bind].
    destruct (rd_rv C i SC ltac:(lia)) as (c & Ec & Rc). rewrite Ec. cbn [bind].
    destruct (rv_fma_vvv _ _ _ _ _ _ Rd Rb Rc) as (k & Ek & Rk). rewrite Ek. exists k. auto. }
  rewrite E2. cbn [bind].
  assert (TV : forall i, (i < S NR)%nat -> exists x, nth i T2 None = Some x /\
     rv x (fadd (nth i (pl C) f0) (if (m <=? i)%nat then fmul (disc (pl C) (sq s) n) (nth (i - m) (pl B) f0) else f0))).
  { intros i Hi. destruct (Nat.leb_spec m i).
    - destruct (V2 i ltac:(lia)) as (x & Ex & Rx). exists x. split; [exact Ex|].
      match goal with |- rv x ?a => match type of Rx with rv _ ?b => replace a with b by ring end end. exact Rx.
    - rewrite W2 by lia. destruct (V1 i ltac:(lia)) as (x & Ex & Rx). exists x. split; [exact Ex|].
      match goal with |- rv x ?a => match type of Rx with rv _ ?b => replace a with b by ring end end. exact Rx. }
  assert (FC : forall C0, length C0 = S NR -> exists C', for_up 0 (S NR) (fun i C => x <- rdu T2 i ;; wr C i x) C0 = Ok C' /\ smallq C' /\ length C' = S NR /\
     combine F (pl C') (pl C) (pl B) (disc (pl C) (sq s) n) m).
  { intros C0 L0. destruct (fill_w 0 (fun i x => rv x (fadd (nth i (pl C) f0) (if (m <=? i)%nat then fmul (disc (pl C) (sq s) n) (nth (i - m) (pl B) f0) else f0))) 0 (S NR)
      (fun i C => x <- rdu T2 i ;; wr C i x) C0) as (C' & EC & LC' & VC & _).
    { lia. } { lia. }
    { intros i u Hi. destruct (TV i ltac:(lia)) as (x & Ex & Rx). rewrite (rdu_nth _ _ _ Ex). exists x. auto. }
    exists C'. split; [exact EC|]. split; [|split; [lia|]].
    - apply small_intro. intros i Hi. apply VC. lia.
    - intros i. destruct (Nat.lt_ge_cases i (S NR)) as [Hi|Hi].
      + rewrite nth_pl. apply VC. lia.
      + rewrite !(nth_overflow (pl C')), (nth_overflow (pl C)) by (unfold pl; rewrite map_length; lia).
        destruct (Nat.leb_spec m i); [rewrite HB by lia|]; ring. }
  destruct (Nat.leb_spec (2 * L) (n + count)) as [CL|CL].
  - destruct (fill_w 0 (fun i x => rv x (fdiv (nth i (pl C) f0) (disc (pl C) (sq s) n))) 0 (S NR)
      (fun i B => c <- rd C i ;; x <- v_div G c d ;; wr B i x) B) as (B' & EB & LB' & VB & _).
    { lia. } { lia. }
    { intros i u Hi. destruct (rd_rv C i SC ltac:(lia)) as (c & Ec & Rc). rewrite Ec. cbn [bind].
      destruct (rv_div _ _ _ _ Rc Rd Zd) as (k & Ek & Rk). rewrite Ek. exists k. auto. }
    rewrite EB. cbn [bind]. destruct (FC C LC) as (C' & EC & SC' & LC' & CC). rewrite EC. cbn [bind].
    assert (NB : forall i, nth i (pl B') f0 = fdiv (nth i (pl C) f0) (disc (pl C) (sq s) n)).
    { intros i. destruct (Nat.lt_ge_cases i (S NR)) as [Hi|Hi].
      - rewrite nth_pl. apply VB. lia.
      - rewrite !nth_overflow by (unfold pl; rewrite map_length; lia). field. exact Zd. }
    eexists. eexists. eexists. eexists. split; [reflexivity|]. split; [|split; [|split; [right; auto|exact CC]]].
    + split; [exact SC'|]. split; [exact LC'|]. split; [apply small_intro; intros i Hi; apply VB; lia|]. split; [lia|].
      replace (n + count + 1 - L)%nat with (n + count + 1 - L)%nat by lia. apply (bm_change F C2 (sq s) count n (pl C) (pl B) L m (pl C') (pl B')); try assumption; lia.
    + intros x Hx Hy. split; [eapply bm_root; eassumption|]. rewrite (eval_scale F (pl B') (pl C) (finv (disc (pl C) (sq s) n))).
      * rewrite Hx. ring.
      * intros i. rewrite NB. field. exact Zd.
  - cbn [bind]. destruct (FC C LC) as (C' & EC & SC' & LC' & CC). rewrite EC. cbn [bind].
    eexists. eexists. eexists. eexists. split; [reflexivity|]. split; [|split; [|split; [left; auto|exact CC]]].
    + split; [exact SC'|]. split; [exact LC'|]. split; [exact SB|]. split; [exact LB|]. apply (bm_same F C2 (sq s) count n (pl C) (pl B) L m (pl C')); try assumption; lia.
    + intros x Hx Hy. split; [eapply bm_root; eassumption|exact Hy].
Qed.

(** the whole run, with any invariant on roots and length that single steps preserve *)
Lemma bm_ok NR count s C (R : nat -> list (car F) -> list (car F) -> nat -> nat -> Prop) : smallq s -> length s = NR -> (count <= NR)%nat -> smallq C -> length C = S NR ->
  nth 0 (pl C) f0 = f1 -> (forall i, (count < i)%nat -> nth i (pl C) f0 = f0) -> R count (pl C) (pl C) count 1%nat ->
  (forall n C B L m C' B' L' m', (count <= n < NR)%nat -> bm_good NR count s n (C, B, L, m) -> R n (pl C) (pl B) L m -> bm_good NR count s (S n) (C', B', L', m') ->
     (forall x, eval (pl C) x = f0 -> eval (pl B) x = f0 -> eval (pl C') x = f0 /\ eval (pl B') x = f0) ->
     ((L' = L /\ (disc (pl C) (sq s) n = f0 \/ n + count < 2 * L)%nat) \/ (disc (pl C) (sq s) n <> f0 /\ L' = (n + count + 1 - L)%nat)) -> Lib_rs.combine F (pl C') (pl C) (pl B) (disc (pl C) (sq s) n) m -> R (S n) (pl C') (pl B') L' m') ->
  exists C' B' L m, rs_bm G NR s C count = Ok (C', L) /\ bm_good NR count s NR (C', B', L, m) /\ R NR (pl C') (pl B') L m.
Proof.
  intros SS LS Hc SC LC H0 HD HR HS. unfold rs_bm.
  destruct (fill_u (fun i x => x = nth i C 0) 0 (S NR) (fun i B => c <- rd C i ;; wru B i c) (uninit N (S NR))) as (B1 & E1 & L1 & V1 & _).
  { lia. } { unfold uninit. rewrite repeat_length. lia. }
  { intros i u Hi. rewrite (rd_nth C i 0) by lia. cbn [bind]. eexists. split; reflexivity. }
  rewrite E1. cbn [bind].
  destruct (settled_ok (S NR) B1 (fun i x => x = nth i C 0)) as (B & E2 & L2 & V2). { intros i Hi. apply V1. lia. }
  rewrite E2. cbn [bind]. assert (B = C) as -> by (apply (list_ext _ _ 0); [lia|]; intros i Hi; apply V2; lia).
  edestruct (for_up_inv (fun n st => bm_good NR count s n st /\ let '(C, B, L, m) := st in R n (pl C) (pl B) L m)) as (st & E & Hst).
  4: { rewrite E. destruct st as [[[C' B'] L] m]. cbn [bind]. destruct Hst as (Hg & Hr). exists C', B', L, m. auto. }
  - exact Hc.
  - intros n st Hn (Hg & Hr). destruct st as [[[C1 B2] L] m].
    destruct (bm_step_ok NR count s n C1 B2 L m SS LS Hn Hg) as (C' & B' & L' & m' & E & Hg' & Hroot & Hlen & Hcomb). rewrite E.
    eexists. split; [reflexivity|]. split; [exact Hg'|]. eapply HS; eassumption.
  - split; [|exact HR]. repeat (split; [assumption|]). apply bm_init; assumption.
Qed.

(** ** the erasure locator *)
(** the field element of position [p] *)
Definition Xp (p : nat) : car F := fpow al (N.to_nat Q1 - 1 - p).
Lemma Xp_neq p : Xp p <> f0. Proof. apply fpow_neq, al_neq. Qed.
Lemma Xp_inv p : (p < N.to_nat Q1)%nat -> finv (Xp p) = fpow al (S p).
Proof.
  intros H. apply (fmul_cancel_l F (Xp p)); [apply Xp_neq|]. transitivity (@f1 F); [field; apply Xp_neq|].
  unfold Xp. rewrite <- fpow_add. replace (N.to_nat Q1 - 1 - p + S p)%nat with (N.to_nat Q1) by lia. symmetry. apply al_order.
Qed.
Lemma ridx_last p : (p < N.to_nat Q1)%nat -> exists k, i_div G (N.of_nat (N.to_nat Q1 - 1)) (N.of_nat p) = Ok k /\ ridx k (Xp p).
Proof.
  intros H. destruct (ridx_div G OK (N.of_nat (N.to_nat Q1 - 1)) (N.of_nat p) (fpow al (N.to_nat Q1 - 1)) (fpow al p)) as (k & E & R).
  - apply ridx_pow. lia.
  - apply ridx_pow. lia.
  - exists k. split; [exact E|]. replace (Xp p) with (fdiv (fpow al (N.to_nat Q1 - 1)) (fpow al p)); [exact R|].
    unfold Xp. replace (fpow al (N.to_nat Q1 - 1)) with (fmul (fpow al (N.to_nat Q1 - 1 - p)) (fpow al p)).
    + field. apply fpow_neq, al_neq.
    + rewrite <- fpow_add. f_equal. lia.
Qed.
Lemma erasure_locator_ok NR erasures count : (count <= NR)%nat -> (count <= length erasures)%nat ->
  (forall i, (i < count)%nat -> nth i erasures 0 < Q1) ->
  exists C, rs_erasure_locator G NR erasures count = Ok C /\ smallq C /\ length C = S NR /\ nth 0 (pl C) f0 = f1 /\
    (forall i, (count < i)%nat -> nth i (pl C) f0 = f0) /\
    (forall i, (i < count)%nat -> eval (pl C) (finv (Xp (N.to_nat (nth i erasures 0)))) = f0).
Proof.
  intros Hc HL HE. unfold rs_erasure_locator. rewrite mkV1, mkV0. cbn [bind].
  assert (EN : N.to_nat (gf_N G) = N.to_nat Q1) by reflexivity. rewrite EN. pose proof (Q1p G OK) as QP. rewrite mkI by lia. cbn [bind].
  set (X := fun i => Xp (N.to_nat (nth i erasures 0))).
  set (Inv := fun (i : nat) (C : list N) => smallq C /\ length C = S NR /\ nth 0 (pl C) f0 = f1 /\
    (forall j, (i < j)%nat -> nth j (pl C) f0 = f0) /\ (forall j, (j < i)%nat -> eval (pl C) (finv (X j)) = f0)).
  assert (XN : forall j, X j <> f0) by (intros; apply Xp_neq).
  destruct (Nat.ltb_spec 0 count) as [C0|C0].
  - rewrite (rd_nth erasures 0 0) by lia. cbn [bind]. specialize (HE 0%nat C0) as HE0.
    destruct (ridx_last (N.to_nat (nth 0 erasures 0)) ltac:(lia)) as (k & Ek & Rk). rewrite N2Nat.id in Ek. rewrite Ek. cbn [bind].
    destruct (rv_value _ _ Rk) as (v & Ev & Rv). rewrite Ev. cbn [bind]. rewrite wr_Ok by (cbn [length]; rewrite repeat_length; lia). cbn [bind].
    edestruct (for_up_inv Inv) as (C & E & HI).
    4: { exists C. split; [exact E|exact HI]. }
    + lia.
    + intros i C Hi (SC & LC & H0 & HD & HR). rewrite (rd_nth erasures i 0) by lia. cbn [bind]. specialize (HE i ltac:(lia)) as HEi.
      destruct (ridx_last (N.to_nat (nth i erasures 0)) ltac:(lia)) as (t & Et & Rt). rewrite N2Nat.id in Et. rewrite Et. cbn [bind].
      change (ridx t (X i)) in Rt.
      edestruct (for_down_inv (fun j (D : list N) => smallq D /\ length D = S NR /\
         forall a, nth a (pl D) f0 = fadd (nth a (pl C) f0) (if (S j <=? a)%nat && (a <=? S i)%nat then fmul (X i) (nth (a - 1) (pl C) f0) else f0))) as (D & E & SD & LD & VD).
      4: { exists D. split; [exact E|].
           assert (CB : combine F (pl D) (pl C) (pl C) (X i) 1).
           { intros a. rewrite VD. destruct (Nat.leb_spec 1 a); [|reflexivity]. destruct (Nat.leb_spec a (S i)); [reflexivity|].
             cbn [andb]. rewrite (HD (a - 1)%nat) by lia. ring. }
           split; [exact SD|]. split; [exact LD|]. split; [rewrite VD; cbn [Nat.leb andb]; rewrite H0; ring|]. split.
           - intros a Ha. rewrite VD, HD by lia. destruct (Nat.leb_spec 1 a), (Nat.leb_spec a (S i)); cbn [andb]; try lia; ring.
           - intros j Hj. rewrite (eval_combine F (pl D) (pl C) (pl C) (X i) 1 _ CB). cbn [fpow]. destruct (Nat.eq_dec j i) as [->|Hne].
             + transitivity (fadd (eval (pl C) (finv (X i))) (eval (pl C) (finv (X i)))); [field; apply XN|apply C2].
             + rewrite HR by lia. ring. }
      * lia.
      * intros j D Hj (SD & LD & VD). cbv beta.
        destruct (rd_rv D j SD ltac:(lia)) as (x & Ex & Rx). rewrite Ex. cbn [bind]. destruct (rv_iv _ _ _ _ Rt Rx) as (p & Ep & Rp). rewrite Ep. cbn [bind].
        destruct (rd_rv D (j + 1) SD ltac:(lia)) as (y & Ey & Ry). rewrite Ey. cbn [bind]. destruct (rv_add _ _ _ _ Ry Rp) as (z & _ & Ez & Rz). rewrite Ez. cbn [bind].
        rewrite wr_Ok by lia. eexists. split; [reflexivity|]. split; [apply small_upd; [exact SD|apply Rz]|]. split; [rewrite length_upd; exact LD|].
        intros a. rewrite nth_pl, nth_upd. destruct (Nat.eqb_spec (j + 1) a) as [<-|Hne].
        -- replace (j + 1 <? length D)%nat with true by lia. cbn [andb]. rewrite (proj2 Rz), !VD.
           replace (S (S j) <=? j + 1)%nat with false by lia. replace (S (S j) <=? j)%nat with false by lia. replace (S j <=? j + 1)%nat with true by lia.
           replace (j + 1 <=? S i)%nat with true by lia. replace (j + 1 - 1)%nat with j by lia. cbn [andb]. change (gf_fld G OK) with F. ring.
        -- cbn [andb]. rewrite <- nth_pl, VD. replace (S j <=? a)%nat with (S (S j) <=? a)%nat by lia. reflexivity.
      * split; [exact SC|]. split; [exact LC|]. intros a. destruct (Nat.leb_spec (S (S i)) a), (Nat.leb_spec a (S i)); cbn [andb]; try lia; ring.
    + assert (SU : smallq (upd (1 :: repeat 0 NR) 1 v)).
      { apply small_upd; [|apply Rv]. constructor; [apply rv_1|apply small_repeat0]. }
      assert (NU : forall a, nth a (pl (upd (1 :: repeat 0 NR) 1 v)) f0 = match a with 0%nat => f1 | 1%nat => X 0%nat | _ => f0 end).
      { intros a. rewrite nth_pl, nth_upd. cbn [length]. rewrite repeat_length. replace (1 <? S NR)%nat with true by lia. rewrite andb_true_r.
        destruct a as [|[|a]]; cbn [Nat.eqb]; [reflexivity|apply Rv|]. cbn [nth]. rewrite nth_repeat. reflexivity. }
      split; [exact SU|]. split; [rewrite length_upd; cbn [length]; rewrite repeat_length; reflexivity|].
      split; [rewrite NU; reflexivity|]. split.
      * intros j Hj. rewrite NU. destruct j as [|[|j]]; try lia. reflexivity.
      * intros j Hj. assert (j = 0%nat) by lia. subst j. rewrite (eval_bound F 2).
        -- cbn [fsum fpow]. rewrite !NU. transitivity (fadd (@f1 F) f1); [field; apply XN|apply C2].
        -- intros a Ha. rewrite NU. destruct a as [|[|a]]; try lia. reflexivity.
  - cbn [bind]. rewrite for_up_nil by lia. eexists. split; [reflexivity|].
    assert (NU : forall a, nth a (pl (1 :: repeat 0 NR)) f0 = match a with 0%nat => f1 | _ => f0 end).
    { intros a. rewrite nth_pl. destruct a as [|a]; [reflexivity|]. cbn [nth]. rewrite nth_repeat. reflexivity. }
    split; [constructor; [apply rv_1|apply small_repeat0]|]. split; [cbn [length]; rewrite repeat_length; reflexivity|].
    split; [apply NU|]. split; [|intros; lia]. intros i Hi. rewrite NU. destruct i; [lia|reflexivity].
Qed.

(** the degree *)
Lemma degree_ok C deg : smallq C -> (deg < length C)%nat -> nth 0 (pl C) f0 = f1 ->
  exists d, rs_degree C deg = Ok (Some d) /\ (d <= deg)%nat /\ nth d (pl C) f0 <> f0 /\ forall i, (d < i <= deg)%nat -> nth i (pl C) f0 = f0.
Proof.
  intros SC. induction deg as [|deg IH]; intros HL H0.
  - destruct (rd_rv C 0 SC HL) as (x & Ex & Rx). cbn [rs_degree]. rewrite Ex. cbn [bind]. rewrite H0 in Rx.
    destruct (rv_nz _ _ Rx) as [(_ & Z)|(Nx & Z)]; [exfalso; revert Z; apply f1_neq_0|]. rewrite Nx. cbn [negb]. exists 0%nat. split; [reflexivity|].
    split; [lia|]. split; [rewrite H0; exact Z|]. intros; lia.
  - destruct (rd_rv C (S deg) SC HL) as (x & Ex & Rx). cbn [rs_degree]. rewrite Ex. cbn [bind].
    destruct (rv_nz _ _ Rx) as [(Nx & Z)|(Nx & Z)]; rewrite Nx; cbn [negb].
    + destruct (IH ltac:(lia) H0) as (d & E & Hd & Hnz & Hz). exists d. split; [exact E|]. split; [lia|]. split; [exact Hnz|].
      intros i Hi. destruct (Nat.eq_dec i (S deg)) as [->|]; [exact Z|apply Hz; lia].
    + exists (S deg). split; [reflexivity|]. split; [lia|]. split; [exact Z|]. intros; lia.
Qed.
End S.
