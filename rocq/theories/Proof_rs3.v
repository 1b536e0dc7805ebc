(** Proofs about Model_rs: the search for the roots of the locator. *)
From Coq Require Import ZifyBool ZifyNat ZifyN Field.
From Verif Require Import Cpp Lib_list Proof_bits Model_gf Model_rs Spec_gf Lib_gf2lin Lib_gf2poly Lib_gf Lib_field Lib_poly Lib_rs Proof_gf Proof_gffield Proof_crs1 Proof_crs2 Proof_rs1 Proof_rs2.
Local Open Scope N_scope.

Section S.
Variable G : gf.
Hypothesis OK : gf_ok G.
Notation Q := (2 ^ gf_M G).
Notation Q1 := (2 ^ gf_M G - 1).
Notation gm := (gmul (gf_M G) (gf_POLY G)).
Notation gp := (gpow (gf_M G) (gf_POLY G)).
Notation F := (gf_fld G OK).
Notation I := (inn G OK : N -> car F).
Notation ridx := (ridx G OK).
Notation rv := (rv G OK).
Notation pl := (pl G OK).
Notation al := (al G OK).
Notation Xp := (Xp G OK).
Notation smallq := (Forall (fun x => x < Q)).
Add Field FFr3 : (fth (gf_fld G OK)).
Hypothesis HQ : (2 <= N.to_nat Q1)%nat.
Let c2 : forall x : car F, fadd x x = f0 := C2 G OK.

(** ** Artin-Schreier *)
Definition asx (x : N) : N := N.lxor (gm x x) x.
Lemma asx_lt x : x < Q -> asx x < Q.
Proof. intros H. apply lxor_lt; [apply (gm_lt G OK); exact H|exact H]. Qed.
Lemma I_asx x : x < Q -> I (asx x) = fadd (fmul (I x) (I x)) (I x).
Proof. intros H. unfold asx. rewrite I_xor, I_mul; try assumption; [reflexivity|]. apply (gm_lt G OK). exact H. Qed.
Lemma odd_lt x : x < Q -> N.lxor x 1 < Q.
Proof. intros H. apply lxor_lt; [exact H|]. apply (rv_1 G OK). Qed.
Lemma I_flip x : x < Q -> I (N.lxor x 1) = fadd (I x) f1.
Proof. intros H. rewrite I_xor; [reflexivity|exact H|apply (rv_1 G OK)]. Qed.
Lemma asx_cases x y : x < Q -> y < Q -> fadd (fmul (I x) (I x)) (I x) = fadd (fmul (I y) (I y)) (I y) -> x = y \/ x = N.lxor y 1.
Proof.
  intros Hx Hy H.
  assert (Z : fmul (fadd (I x) (I y)) (fadd (fadd (I x) (I y)) f1) = f0).
  { transitivity (fadd (fadd (fadd (fmul (I x) (I x)) (I x)) (fadd (fmul (I y) (I y)) (I y))) (fadd (fmul (I x) (I y)) (fmul (I x) (I y)))); [ring|].
    rewrite H, !c2. ring. }
  apply fmul_0 in Z. destruct Z as [Z|Z]; [left|right].
  - apply (I_inj G OK); try assumption. apply (add_0_eq F c2). exact Z.
  - apply (I_inj G OK); [assumption|apply odd_lt; assumption|]. rewrite I_flip by assumption. apply (add_0_eq F c2). rewrite <- Z. ring.
Qed.
Lemma even_flip x : N.even (N.lxor x 1) = negb (N.even x).
Proof. rewrite <- !N.negb_odd, <- !N.bit0_odd, N.lxor_spec. destruct (N.testbit x 0); reflexivity. Qed.
Lemma asx_inj x y : x < Q -> y < Q -> N.even x = true -> N.even y = true -> asx x = asx y -> x = y.
Proof.
  intros Hx Hy Ex Ey H. destruct (asx_cases x y Hx Hy) as [E|E]; [|exact E|].
  - rewrite <- !I_asx by assumption. rewrite H. reflexivity.
  - rewrite E, even_flip, Ey in Ex. discriminate.
Qed.
Lemma asx_nz x : x < Q -> 2 <= x -> asx x <> 0.
Proof.
  intros Hx H2 E. destruct (asx_cases x 0 Hx) as [->| ->]; [apply (rv_0 G OK)| |lia|cbn in H2; lia].
  rewrite <- I_asx, E by exact Hx. change (I 0) with (@f0 F). ring.
Qed.

(** what the table contains *)
Definition imap_ok (imap : list N) : Prop :=
  length imap = N.to_nat Q /\ smallq imap /\
  (forall y, y < Q -> nth (N.to_nat y) imap 0 <> 0 -> y <> Q1 /\ fadd (fmul (I (nth (N.to_nat y) imap 0)) (I (nth (N.to_nat y) imap 0))) (I (nth (N.to_nat y) imap 0)) = I y) /\
  (forall y (f : car F), y < Q -> y <> 0 -> y <> Q1 -> fadd (fmul f f) f = I y -> nth (N.to_nat y) imap 0 <> 0).
Lemma imap_create : exists imap, rs_imap G = Ok imap /\ imap_ok imap.
Proof.
  unfold rs_imap. assert (EQ : gf_Q G = Q) by reflexivity. assert (EN : gf_N G = Q1) by reflexivity. rewrite EQ, EN.
  assert (Q2 : exists h, Q = 2 * h). { exists (2 ^ (gf_M G - 1)). rewrite <- N.pow_succ_r'. f_equal. pose proof (ok_M G OK). lia. } destruct Q2 as (h & Q2).
  destruct (fill_u (fun i x => x = 0) 0 (N.to_nat Q) (fun i imap => z <- mkValueI G 0 ;; wru imap i z) (uninit N (N.to_nat Q))) as (u0 & E0 & L0 & V0 & _).
  { lia. } { unfold uninit. rewrite repeat_length. lia. } { intros i u Hi. rewrite (mkV0 G OK). exists 0. auto. }
  rewrite E0. cbn [bind]. unfold uninit in L0. rewrite repeat_length in L0.
  unfold for_step. set (cnt := ((N.to_nat Q1 - 2 + (2 - 1)) / 2)%nat).
  assert (HC : (2 + 2 * cnt = N.to_nat Q)%nat).
  { unfold cnt. replace (N.to_nat Q1 - 2 + (2 - 1))%nat with ((N.to_nat h - 1) * 2)%nat by lia. rewrite Nat.div_mul by lia. lia. }
  edestruct (loop_inv (fun k (u : list (option N)) => length u = N.to_nat Q /\ forall y, y < Q -> exists v, nth (N.to_nat y) u None = Some v /\ v < Q /\
     (v <> 0 -> y <> Q1 /\ exists j, (j < k)%nat /\ v = N.of_nat (2 + j * 2) /\ asx v = y) /\
     (forall j, (j < k)%nat -> y <> Q1 -> asx (N.of_nat (2 + j * 2)) = y -> v <> 0))) as (u & E & LU & HU).
  3: { rewrite E. clear E. cbn [bind]. rewrite Nat.add_0_l in HU.
    destruct (settled_ok (N.to_nat Q) u (fun i v => v < Q /\ (v <> 0 -> N.of_nat i <> Q1 /\ asx v = N.of_nat i) /\
       (forall j, (j < cnt)%nat -> N.of_nat i <> Q1 -> asx (N.of_nat (2 + j * 2)) = N.of_nat i -> v <> 0))) as (l & El & Ll & Vl).
    { intros i Hi. destruct (HU (N.of_nat i) ltac:(lia)) as (v & Ev & Hv & H1 & H2). rewrite Nat2N.id in Ev. exists v. split; [exact Ev|]. split; [exact Hv|].
      split; [|exact H2]. intros Hv0. destruct (H1 Hv0) as (A & j & _ & _ & B). auto. }
    rewrite El. exists l. split; [reflexivity|]. split; [exact Ll|]. split; [apply small_intro; intros i Hi; apply Vl; lia|]. split.
    - intros y Hy Hne. destruct (Vl (N.to_nat y) ltac:(lia)) as (_ & Hl & H1 & _). rewrite N2Nat.id in H1. destruct (H1 Hne) as (A & B). split; [exact A|].
      rewrite <- I_asx by exact Hl. rewrite B. reflexivity.
    - intros y f Hy Hy0 HyN Hf. destruct (Vl (N.to_nat y) ltac:(lia)) as (_ & Hl & _ & H2). rewrite N2Nat.id in H2.
      assert (EX : exists x, x < Q /\ N.even x = true /\ asx x = y).
      { pose proof (out_lt G f) as Ho. assert (EI : I (out G f) = f) by apply inn_out. destruct (N.even (out G f)) eqn:EE.
        - exists (out G f). split; [exact Ho|]. split; [exact EE|]. apply (I_inj G OK); [apply asx_lt; exact Ho|exact Hy|]. rewrite I_asx, EI by exact Ho. exact Hf.
        - exists (N.lxor (out G f) 1). split; [apply odd_lt; exact Ho|]. split; [rewrite even_flip, EE; reflexivity|].
          apply (I_inj G OK); [apply asx_lt, odd_lt; exact Ho|exact Hy|]. rewrite I_asx by (apply odd_lt; exact Ho). rewrite I_flip, EI by exact Ho. rewrite <- Hf.
          transitivity (fadd (fadd (fmul f f) f) (fadd (fadd f f) (fadd f1 f1))); [ring|]. rewrite !c2. ring. }
      destruct EX as (x & Hx & Ex & Ax). apply N.even_spec in Ex. destruct Ex as (j & ->).
      destruct (N.eq_dec j 0) as [->|Hj].
      + exfalso. apply Hy0. rewrite <- Ax. apply (I_inj G OK); [apply asx_lt; exact Hx|apply (rv_0 G OK)|]. rewrite I_asx by exact Hx. change (I (2 * 0)) with (@f0 F). change (I 0) with (@f0 F). ring.
      + apply (H2 (N.to_nat j - 1)%nat); [lia|exact HyN|]. rewrite <- Ax. f_equal. lia. }
  - intros k u Hk (LU & HU). cbv beta. set (x := N.of_nat (2 + k * 2)). assert (Hx : x < Q) by lia.
    assert (EV : mkValueI G (2 + k * 2) = Ok x) by (apply (rv_mkV G OK); lia). rewrite EV. cbn [bind].
    rewrite (v_mul_ok G OK) by assumption. cbn [bind]. rewrite (v_add_ok G OK) by (try assumption; apply (gm_lt G OK); assumption). cbn [bind]. change (N.lxor (gm x x) x) with (asx x).
    rewrite (rv_mkV G OK) by lia. cbn [bind]. rewrite N2Nat.id. pose proof (asx_lt x Hx) as Ha. rewrite (v_eq_ok G) by (try assumption; lia). cbn [bind].
    destruct (N.eqb_spec (asx x) Q1) as [EN1|EN1].
    + exists u. split; [reflexivity|]. split; [exact LU|]. intros y Hy. destruct (HU y Hy) as (v & Ev & Hv & H1 & H2). exists v. split; [exact Ev|]. split; [exact Hv|]. split.
      * intros Hv0. destruct (H1 Hv0) as (A & j & B & C & D). split; [exact A|]. exists j. split; [lia|auto].
      * intros j Hj HyN Aj. destruct (Nat.eq_dec j k) as [->|]; [|apply (H2 j); [lia|exact HyN|exact Aj]]. exfalso. apply HyN. rewrite <- Aj. exact EN1.
    + assert (NZ : nz (asx x) = true). { unfold nz. pose proof (asx_nz x Hx ltac:(lia)). destruct (N.eqb_spec (asx x) 0); [contradiction|reflexivity]. }
      rewrite NZ. cbn [assert_ bind]. destruct (HU (asx x) Ha) as (v & Ev & Hv & H1 & H2). rewrite (rdu_nth _ _ _ Ev). cbn [bind].
      assert (v = 0) as ->.
      { destruct (N.eq_dec v 0) as [->|Hv0]; [reflexivity|exfalso]. destruct (H1 Hv0) as (_ & j & Hj & -> & Aj).
        assert (N.of_nat (2 + j * 2) = x); [|lia]. apply asx_inj; try assumption.
        - replace (N.of_nat (2 + j * 2)) with (2 * N.of_nat (1 + j)) by lia. apply N.even_spec. eexists. reflexivity.
        - replace x with (2 * N.of_nat (1 + k)) by lia. apply N.even_spec. eexists. reflexivity. }
      cbn [nz N.eqb negb assert_ bind]. unfold wru. rewrite wr_Ok by lia. eexists. split; [reflexivity|]. split; [rewrite length_upd; exact LU|].
      intros y Hy. rewrite nth_upd. destruct (Nat.eqb_spec (N.to_nat (asx x)) (N.to_nat y)) as [Ey|Ey].
      * apply N2Nat.inj in Ey. subst y. replace (N.to_nat (asx x) <? length u)%nat with true by lia. cbn [andb]. exists x. split; [reflexivity|]. split; [exact Hx|]. split.
        -- intros _. split; [exact EN1|]. exists k. split; [lia|auto].
        -- intros. lia.
      * cbn [andb]. destruct (HU y Hy) as (v & Ev' & Hv' & H1' & H2'). exists v. split; [exact Ev'|]. split; [exact Hv'|]. split.
        -- intros Hv0. destruct (H1' Hv0) as (A & j & B & C & D). split; [exact A|]. exists j. split; [lia|auto].
        -- intros j Hj HyN Aj. destruct (Nat.eq_dec j k) as [->|]; [|apply (H2' j); [lia|exact HyN|exact Aj]]. exfalso. apply Ey. f_equal. exact Aj.
  - split; [exact L0|]. intros y Hy. destruct (V0 (N.to_nat y) ltac:(lia)) as (v & Ev & ->). exists 0. split; [exact Ev|]. split; [apply (rv_0 G OK)|]. split; intros; lia.
Qed.

Lemma one_ok : exists r, mkIndexI G 1 = Ok r /\ ridx r al.
Proof. apply (mkI_1 G OK 1 0); lia. Qed.
(** ** locations *)
(** the reciprocal of the element of position p *)
Notation Rp p := (fpow al (S p)).
Lemma Rp_neq p : Rp p <> f0. Proof. apply fpow_neq, al_neq. Qed.
Lemma Rp_inj p q : (p < N.to_nat Q1)%nat -> (q < N.to_nat Q1)%nat -> Rp p = Rp q -> p = q.
Proof. intros Hp Hq H. cbn [fpow] in H. apply fmul_cancel_l in H; [|apply al_neq]. apply (al_inj G OK) in H; lia. Qed.
Lemma pos_of ix (f : car F) one : ridx ix f -> mkIndexI G 1 = Ok one -> exists p, i_div G ix one = Ok (N.of_nat p) /\ (p < N.to_nat Q1)%nat /\ Rp p = f.
Proof.
  intros Hi E1. destruct one_ok as (pe & Ep & Rpe). assert (pe = one) as -> by congruence.
  destruct (ridx_div G OK _ _ _ _ Hi Rpe) as (k & E & (Hk & Ek)). exists (N.to_nat k). rewrite N2Nat.id. split; [exact E|]. split; [lia|].
  cbn [fpow]. rewrite <- (I_gp G OK), N2Nat.id. transitivity (fmul al (fdiv f al)); [f_equal; exact Ek|]. field. apply al_neq.
Qed.

Section L.
Variable C : list N.
Variables NR deg : nat.
Hypothesis SC : smallq C.
Hypothesis LC : length C = S NR.
Hypothesis HNQ : (NR < N.to_nat Q1)%nat.
Hypothesis Hdeg : (deg <= NR)%nat.
Hypothesis C0 : nth 0 (pl C) f0 = f1.
Hypothesis Cd : nth deg (pl C) f0 <> f0.
Hypothesis Ch : forall i, (deg < i)%nat -> nth i (pl C) f0 = f0.

Definition isroot (p : nat) : Prop := (p < N.to_nat Q1)%nat /\ eval (pl C) (Rp p) = f0.
Lemma roots_le (pos : list nat) : NoDup pos -> Forall isroot pos -> (length pos <= deg)%nat.
Proof.
  intros ND HR. destruct (Nat.le_gt_cases (length pos) deg) as [H|H]; [exact H|exfalso]. apply (f1_neq_0 F). rewrite <- C0.
  apply (too_many_roots F (S deg) (pl C) (fun i => Rp (nth i pos 0%nat))).
  - intros i Hi. apply Ch. lia.
  - intros i j Hij E. pose proof (proj1 (Forall_nth isroot pos) HR) as HR'.
    apply Rp_inj in E; [|apply HR'; lia|apply HR'; lia]. apply (proj1 (NoDup_nth pos 0%nat) ND) in E; lia.
  - intros i Hi. apply (proj1 (Forall_nth isroot pos) HR). lia.
Qed.
Definition found (cnt : nat) (locs : list (option N)) (pos : list nat) : Prop :=
  length pos = cnt /\ NoDup pos /\ Forall isroot pos /\ forall i, (i < cnt)%nat -> nth i locs None = Some (N.of_nat (nth i pos 0%nat)).

Definition rootb (p : nat) : bool := if fdec (eval (pl C) (Rp p)) f0 then true else false.
Lemma chien_ok locs : (deg <= length locs)%nat ->
  exists cnt locs' pos, rs_chien G C deg locs = Ok (cnt, locs') /\ length locs' = length locs /\ found cnt locs' pos /\
    (forall pos', NoDup pos' -> Forall isroot pos' -> (length pos' <= cnt)%nat).
Proof.
  intros HL. unfold rs_chien.
  destruct (fill_u (fun i x => rv x (nth i (pl C) f0)) 0 (S deg) (fun i tmp => x <- rd C i ;; wru tmp i x) (uninit N (S deg))) as (t0 & E0 & L0 & V0 & _).
  { lia. } { unfold uninit. rewrite repeat_length. lia. } { intros i u Hi. destruct (rd_rv G OK C i SC ltac:(lia)) as (x & Ex & Rx). rewrite Ex. exists x. auto. }
  rewrite E0. cbn [bind]. unfold uninit in L0. rewrite repeat_length in L0.
  assert (FR : forall n, (n <= N.to_nat Q1)%nat -> NoDup (filter rootb (seq 0 n)) /\ Forall isroot (filter rootb (seq 0 n))).
  { intros n Hn. split; [apply NoDup_filter, seq_NoDup|]. apply Forall_forall. intros p Hp. apply filter_In in Hp. destruct Hp as (Hp & Hr). apply in_seq in Hp.
    unfold rootb in Hr. destruct (fdec (eval (pl C) (Rp p)) f0) as [Z|Z]; [|discriminate]. split; [lia|exact Z]. }
  assert (EN : N.to_nat (gf_N G) = N.to_nat Q1) by reflexivity. rewrite EN.
  edestruct (for_up_inv (fun i '((tmp, count, l) : list (option N) * nat * list (option N)) => length tmp = S deg /\ length l = length locs /\
     (forall j, (j <= deg)%nat -> exists x, nth j tmp None = Some x /\ rv x (fmul (nth j (pl C) f0) (fpow (fpow al i) j))) /\
     count = length (filter rootb (seq 0 i)) /\ (forall k, (k < count)%nat -> nth k l None = Some (N.of_nat (nth k (filter rootb (seq 0 i)) 0%nat))))) as (st & E & HI).
  4: { rewrite E. destruct st as [[tmp count] l]. destruct HI as (LT & Ll & HT & Hc & Hl). cbn [bind]. exists count, l, (filter rootb (seq 0 (N.to_nat Q1))).
    split; [reflexivity|]. split; [exact Ll|]. destruct (FR _ (le_n _)) as (ND & FI). split; [repeat split; try assumption; symmetry; exact Hc|].
    intros pos' ND' HR'. rewrite Hc. apply NoDup_incl_length; [exact ND'|]. intros p Hp. pose proof (proj1 (Forall_forall isroot pos') HR' p Hp) as (A & B).
    apply filter_In. split; [apply in_seq; lia|]. unfold rootb. destruct (fdec (eval (pl C) (Rp p)) f0); [reflexivity|contradiction]. }
  - lia.
  - intros i [[tmp count] l] Hi (LT & Ll & HT & Hc & Hl). cbv beta.
    destruct (HT 0%nat ltac:(lia)) as (s0 & Es0 & Rs0). rewrite (rdu_nth _ _ _ Es0). cbn [bind].
    edestruct (for_up_inv (fun j '((t, sum) : list (option N) * N) => length t = S deg /\
       (forall a, (a <= deg)%nat -> exists x, nth a t None = Some x /\ rv x (fmul (nth a (pl C) f0) (fpow (fpow al (if (a <? j)%nat then S i else i)) a))) /\
       rv sum (fsum j (fun a => fmul (nth a (pl C) f0) (fpow (fpow al (S i)) a))))) as (st & E & HI).
    4: { rewrite E. destruct st as [t sum]. destruct HI as (Lt & Ht & Rs). cbn [bind].
      rewrite <- (eval_bound F (S deg) (pl C) (Rp i)) in Rs by (intros a Ha; apply Ch; lia).
      assert (HT' : forall j, (j <= deg)%nat -> exists x, nth j t None = Some x /\ rv x (fmul (nth j (pl C) f0) (fpow (Rp i) j))).
      { intros j Hj. destruct (Ht j Hj) as (x & Ex & Rx). replace (j <? S deg)%nat with true in Rx by lia. exists x. auto. }
      destruct (FR (S i) ltac:(lia)) as (ND & FI). pose proof (roots_le _ ND FI) as LE. rewrite seq_S, filter_app, app_length in LE. cbn [filter Nat.add] in LE.
      rewrite seq_S, filter_app. cbn [filter Nat.add].
      assert (RB : rootb i = if fdec (eval (pl C) (Rp i)) f0 then true else false) by reflexivity.
      destruct (fdec (eval (pl C) (Rp i)) f0) as [Z|Z]; rewrite RB in LE |- *; destruct (rv_nz G OK _ _ Rs) as [(Ns & Zs)|(Ns & Zs)]; try contradiction; rewrite Ns; cbn [negb].
      - rewrite (mkI G OK i) by lia. cbn [bind]. unfold wru. cbn [length] in LE. rewrite wr_Ok by lia. cbn [bind]. eexists. split; [reflexivity|].
        split; [exact Lt|]. split; [rewrite length_upd; exact Ll|]. split; [exact HT'|]. split; [rewrite app_length; cbn [length]; lia|].
        intros k Hk. rewrite nth_upd. destruct (Nat.eqb_spec count k) as [<-|Hne].
        + replace (count <? length l)%nat with true by lia. cbn [andb]. rewrite app_nth2 by lia. rewrite Hc, Nat.sub_diag. reflexivity.
        + cbn [andb]. rewrite app_nth1 by lia. apply Hl. lia.
      - rewrite app_nil_r. eexists. split; [reflexivity|]. repeat (split; [assumption|]). exact Hl. }
    + lia.
    + intros j [t sum] Hj (Lt & Ht & Rs). cbv beta. rewrite (mkI G OK j) by lia. cbn [bind]. destruct (Ht j ltac:(lia)) as (x & Ex & Rx). rewrite (rdu_nth _ _ _ Ex). cbn [bind].
      rewrite Nat.ltb_irrefl in Rx. destruct (rv_vi G OK _ _ _ _ Rx (ridx_pow G OK j ltac:(lia))) as (z & _ & Ez & Rz). rewrite Ez. cbn [bind].
      assert (EZ : fmul (fmul (nth j (pl C) f0) (fpow (fpow al i) j)) (fpow al j) = fmul (nth j (pl C) f0) (fpow (fpow al (S i)) j)).
      { cbn [fpow]. rewrite fpow_mul. ring. }
      rewrite EZ in Rz. unfold wru. rewrite wr_Ok by lia. cbn [bind]. destruct (rv_add G OK _ _ _ _ Rs Rz) as (s' & _ & Es & Rs'). rewrite Es. cbn [bind].
      eexists. split; [reflexivity|]. split; [rewrite length_upd; exact Lt|]. split; [|cbn [fsum]; exact Rs'].
      intros a Ha. rewrite nth_upd. destruct (Nat.eqb_spec j a) as [<-|Hne].
      * replace (j <? length t)%nat with true by lia. cbn [andb]. exists z. split; [reflexivity|]. replace (j <? S j)%nat with true by lia. exact Rz.
      * cbn [andb]. destruct (Ht a Ha) as (y & Ey & Ry). exists y. split; [exact Ey|]. replace (a <? S j)%nat with (a <? j)%nat by lia. exact Ry.
    + split; [exact LT|]. split.
      * intros a Ha. destruct (HT a Ha) as (y & Ey & Ry). exists y. split; [exact Ey|]. destruct (Nat.ltb_spec a 1) as [A|A]; [|exact Ry].
        assert (a = 0%nat) by lia. subst a. exact Ry.
      * cbn [fsum fpow]. cbn [fpow] in Rs0. assert (EE : forall y : car F, fadd f0 (fmul y f1) = fmul y f1) by (intros; ring). rewrite EE. exact Rs0.
  - split; [lia|]. split; [reflexivity|]. split; [|split; [reflexivity|cbn; intros; lia]].
    intros j Hj. destruct (V0 j ltac:(lia)) as (x & Ex & Rx). exists x. split; [exact Ex|]. cbn [fpow]. rewrite fpow_1.
    assert (EE : forall y : car F, fmul y f1 = y) by (intros; ring). rewrite EE. exact Rx.
Qed.

(** the case in which the quadratic equation is not solved although it has solutions *)
Definition gap : Prop := deg = 2%nat /\ nth 1 (pl C) f0 <> f0 /\ fdiv (nth 2 (pl C) f0) (fmul (nth 1 (pl C) f0) (nth 1 (pl C) f0)) = I Q1.
Lemma search_ok imap locs : imap_ok imap -> (deg <= length locs)%nat ->
  exists cnt locs' pos, rs_search G imap C deg locs = Ok (cnt, locs') /\ length locs' = length locs /\ found cnt locs' pos /\
    (gap -> cnt = 0%nat) /\ (~ gap -> forall pos', NoDup pos' -> Forall isroot pos' -> length pos' = deg -> cnt = deg).
Proof.
  intros (LI & SI & HI1 & HI2) HL. unfold rs_search. destruct (Nat.eqb_spec deg 1) as [D1|D1].
  { destruct (rd_rv G OK C 0 SC ltac:(lia)) as (l0 & E0 & R0). rewrite E0. cbn [bind]. destruct (rd_rv G OK C 1 SC ltac:(lia)) as (l1 & E1 & R1). rewrite E1. cbn [bind].
    rewrite C0 in R0. assert (Cd1 : nth 1 (pl C) f0 <> f0) by (rewrite D1 in Cd; exact Cd).
    destruct (rv_index G OK _ _ R0 (f1_neq_0 F)) as (i0 & Ei0 & Ri0). rewrite Ei0. cbn [bind]. destruct (rv_index G OK _ _ R1 Cd1) as (i1 & Ei1 & Ri1). rewrite Ei1. cbn [bind].
    destruct (ridx_div G OK _ _ _ _ Ri0 Ri1) as (q & Eq & Rq). rewrite Eq. cbn [bind].
    destruct one_ok as (one & Eo & _). rewrite Eo. cbn [bind]. destruct (pos_of _ _ _ Rq Eo) as (p & Ep & Hp & Hr). rewrite Ep. cbn [bind].
    unfold wru. rewrite wr_Ok by lia. cbn [bind]. exists 1%nat. eexists. exists [p]. split; [reflexivity|]. split; [apply length_upd|]. split; [|split].
    - split; [reflexivity|]. split; [repeat constructor; intros []|]. split.
      + constructor; [|constructor]. split; [exact Hp|]. rewrite (eval_bound F 2) by (intros i Hi; apply Ch; lia). cbn [fsum fpow]. cbn [fpow] in Hr. rewrite Hr, C0.
        transitivity (fadd (@f1 F) f1); [field; exact Cd1|apply c2].
      + intros i Hi. assert (i = 0%nat) by lia. subst i. rewrite nth_upd. cbn [Nat.eqb]. replace (0 <? length locs)%nat with true by lia. reflexivity.
    - intros (D & _). lia.
    - intros _ pos' ND HR. pose proof (roots_le pos' ND HR). lia. }
  destruct (Nat.eqb_spec deg 2) as [D2|D2].
  { destruct (rd_rv G OK C 1 SC ltac:(lia)) as (l1 & E1 & R1). rewrite E1. cbn [bind]. destruct (rd_rv G OK C 0 SC ltac:(lia)) as (l0 & E0 & R0). rewrite E0. cbn [bind].
    destruct (rd_rv G OK C 2 SC ltac:(lia)) as (l2 & E2 & R2).
    assert (Cd2 : nth 2 (pl C) f0 <> f0) by (rewrite D2 in Cd; exact Cd).
    set (a := nth 2 (pl C) f0) in *. set (b := nth 1 (pl C) f0) in *. rewrite C0 in R0.
    assert (EV : forall x, eval (pl C) x = fadd (fadd f1 (fmul b x)) (fmul a (fmul x x))).
    { intros x. rewrite (eval_bound F 3) by (intros i Hi; apply Ch; lia). cbn [fsum fpow]. rewrite C0. fold a. fold b. ring. }
    assert (N0 : nz l0 = true). { destruct (rv_nz G OK _ _ R0) as [(_ & Z)|(NN & _)]; [exfalso; revert Z; apply f1_neq_0|exact NN]. }
    rewrite N0. cbn [negb]. rewrite orb_false_r.
    destruct (rv_nz G OK _ _ R1) as [(N1 & Z1)|(N1 & Z1)]; rewrite N1; cbn [negb].
    - exists 0%nat, locs, []. split; [reflexivity|]. split; [reflexivity|]. split; [|split].
      + split; [reflexivity|]. split; [constructor|]. split; [constructor|]. intros; lia.
      + reflexivity.
      + intros _ pos' ND HR LP. exfalso. destruct pos' as [|p [|q pos']]; cbn [length] in LP; try lia.
        inversion HR as [|? ? (Hp & Zp) HR1]; subst. inversion HR1 as [|? ? (Hq & Zq) _]; subst. inversion ND as [|? ? Hn _]; subst. apply Hn. left. symmetry. apply Rp_inj; try assumption.
        rewrite EV, Z1 in Zp, Zq. apply (add_0_eq F c2).
        assert (Z : fmul a (fmul (fadd (Rp p) (Rp q)) (fadd (Rp p) (Rp q))) = f0).
        { transitivity (fadd (fadd (fmul a (fmul (Rp p) (Rp p))) (fmul a (fmul (Rp q) (Rp q)))) (fmul a (fadd (fmul (Rp p) (Rp q)) (fmul (Rp p) (Rp q))))); [ring|].
          rewrite c2. transitivity (fadd (fadd (fmul a (fmul (Rp p) (Rp p))) (fmul a (fmul (Rp q) (Rp q)))) (fadd f1 f1)); [rewrite c2; ring|].
          transitivity (fadd (fadd (fadd f1 (fmul f0 (Rp p))) (fmul a (fmul (Rp p) (Rp p)))) (fadd (fadd f1 (fmul f0 (Rp q))) (fmul a (fmul (Rp q) (Rp q))))); [ring|].
          rewrite Zp, Zq. ring. }
        apply fmul_0 in Z. destruct Z as [Z|Z]; [contradiction|]. apply fmul_0 in Z. destruct Z as [Z|Z]; exact Z.
    - rewrite E2. cbn [bind]. rewrite ?E1, ?E0. cbn [bind].
      destruct (rv_div G OK _ _ _ _ R1 R2 Cd2) as (ba & Eba & Rba). rewrite Eba. cbn [bind].
      destruct (rv_mul G OK _ _ _ _ R2 R0) as (ac & Eac & Rac). rewrite Eac. cbn [bind]. destruct (rv_mul G OK _ _ _ _ R1 R1) as (bb & Ebb & Rbb). rewrite Ebb. cbn [bind].
      destruct (rv_div G OK _ _ _ _ Rac Rbb (fmul_neq F _ _ Z1 Z1)) as (y & Ey & Ry). rewrite Ey. cbn [bind].
      assert (Yf : fdiv (fmul a f1) (fmul b b) <> f0).
      { intros Z. apply Cd2. transitivity (fmul (fdiv (fmul a f1) (fmul b b)) (fmul b b)); [field; exact Z1|]. rewrite Z. ring. }
      unfold rs_as. assert (gf_N G = Q1) as -> by reflexivity. replace (y <=? Q1) with true by (pose proof (proj1 Ry); lia). cbn [assert_ bind].
      destruct (rv_nz G OK _ _ Ry) as [(_ & Z)|(Ny & _)]; [contradiction|]. rewrite Ny. cbn [assert_ bind].
      assert (Hy : y < Q) by apply Ry. assert (Iy : I y = fdiv (fmul a f1) (fmul b b)) by apply Ry.
      assert (Y0 : y <> 0). { intros ->. apply Yf. rewrite <- Iy. reflexivity. }
      rewrite (rd_nth imap (N.to_nat y) 0) by lia. cbn [bind].
      set (R := nth (N.to_nat y) imap 0) in *.
      assert (HRv : rv R (I R)) by (apply rv_I; apply (small_nth G OK); exact SI).
      destruct (rv_nz G OK _ _ HRv) as [(NR0 & ZR)|(NR0 & ZR)]; rewrite NR0; cbn [negb].
      + assert (RZ : R = 0). { revert NR0. unfold nz. destruct (N.eqb_spec R 0); [auto|discriminate]. }
        exists 0%nat, locs, []. split; [reflexivity|]. split; [reflexivity|]. split; [|split].
        * split; [reflexivity|]. split; [constructor|]. split; [constructor|]. intros; lia.
        * reflexivity.
        * intros NG pos' ND HR LP. exfalso. destruct pos' as [|p pos']; cbn [length] in LP; [lia|]. inversion HR as [|? ? (Hp & Zp) _]; subst. rewrite EV in Zp.
          apply (HI2 y (fmul (Rp p) (fdiv a b)) Hy Y0).
          -- intros E. apply NG. split; [exact D2|]. split; [exact Z1|]. rewrite <- E, Iy. fold a. fold b. field. exact Z1.
          -- rewrite Iy. apply (add_0_eq F c2).
             transitivity (fmul (fdiv a (fmul b b)) (fadd (fadd f1 (fmul b (Rp p))) (fmul a (fmul (Rp p) (Rp p))))); [field; exact Z1|]. rewrite Zp. field. exact Z1.
          -- exact RZ.
      + assert (RN : R <> 0). { intros E. rewrite E in NR0. discriminate. }
        destruct (HI1 y Hy RN) as (YN & EQ). fold R in EQ. rewrite Iy in EQ.
        assert (R1' : fadd (I R) f1 <> f0).
        { intros Z. apply Yf. rewrite <- EQ. transitivity (fmul (I R) (fadd (I R) f1)); [ring|]. rewrite Z. ring. }
        assert (BA : fdiv b a <> f0). { intros Z. apply Z1. transitivity (fmul (fdiv b a) a); [field; exact Cd2|]. rewrite Z. ring. }
        destruct (rv_mul G OK _ _ _ _ Rba HRv) as (x & Ex & Rx). rewrite Ex. cbn [bind].
        destruct (rv_index G OK _ _ Rx (fmul_neq F _ _ BA ZR)) as (ix & Eix & Rix). rewrite Eix. cbn [bind].
        destruct one_ok as (one & Eo & _). rewrite Eo. cbn [bind]. destruct (pos_of _ _ _ Rix Eo) as (p & Ep & Hp & Hrp). rewrite Ep. cbn [bind].
        unfold wru at 1. rewrite wr_Ok by lia. cbn [bind].
        destruct (rv_add G OK _ _ _ _ Rx Rba) as (z & Ez & _ & Rz). rewrite Ez. cbn [bind].
        assert (ZZ : fadd (fmul (fdiv b a) (I R)) (fdiv b a) = fmul (fdiv b a) (fadd (I R) f1)) by ring. rewrite ZZ in Rz.
        destruct (rv_index G OK _ _ Rz (fmul_neq F _ _ BA R1')) as (iz & Eiz & Riz). rewrite Eiz. cbn [bind].
        destruct (pos_of _ _ _ Riz Eo) as (q & Eqq & Hq & Hrq). rewrite Eqq. cbn [bind].
        unfold wru. rewrite wr_Ok by (rewrite length_upd; lia). cbn [bind].
        assert (PQ : p <> q).
        { intros ->. rewrite Hrp in Hrq. apply fmul_cancel_l in Hrq; [|exact BA]. apply (f1_neq_0 F).
          transitivity (fadd (fadd (I R) f1) (I R)); [|rewrite <- Hrq; apply c2]. transitivity (fadd (fadd (I R) (I R)) f1); [rewrite c2; ring|ring]. }
        assert (RT : forall t, fmul t (fadd t f1) = fdiv (fmul a f1) (fmul b b) -> eval (pl C) (fmul (fdiv b a) t) = f0).
        { intros t Ht. rewrite EV. transitivity (fadd f1 (fmul (fdiv (fmul b b) a) (fmul t (fadd t f1)))); [field; exact Cd2|]. rewrite Ht.
          transitivity (fadd (@f1 F) f1); [field; auto|apply c2]. }
        exists 2%nat. eexists. exists [p; q]. split; [reflexivity|]. split; [rewrite !length_upd; reflexivity|]. split; [|split].
        * split; [reflexivity|]. split; [constructor; [intros [E|[]]; congruence|repeat constructor; intros []]|]. split.
          -- constructor; [|constructor; [|constructor]]; (split; [assumption|]).
             ++ rewrite Hrp. apply RT. rewrite <- EQ. ring.
             ++ rewrite Hrq. apply RT. rewrite <- EQ. transitivity (fadd (fadd (fmul (I R) (I R)) (I R)) (fadd (fadd (I R) (I R)) (fadd f1 f1))); [ring|rewrite !c2; ring].
          -- intros i Hi. rewrite !nth_upd, length_upd. replace (0 <? length locs)%nat with true by lia. replace (1 <? length locs)%nat with true by lia.
             destruct i as [|[|i]]; try lia; reflexivity.
        * intros (_ & _ & GE). exfalso. apply YN. apply (I_inj G OK); [exact Hy|lia|]. rewrite Iy, <- GE. fold a. fold b. field. exact Z1.
        * intros _ pos' _ _ _. symmetry. exact D2. }
  destruct (chien_ok locs HL) as (cnt & locs' & pos & E & LL & FO & CP). exists cnt, locs', pos. repeat (split; [assumption|]). split; [intros (D & _); contradiction|].
  intros _ pos' ND HR LP. pose proof (CP pos' ND HR). destruct FO as (A & B & D & _). pose proof (roots_le pos B D). lia.
Qed.
End L.
End S.
