(** Proofs about Model_rs: error values, and the error correction as a whole. *)
From Coq Require Import ZifyBool ZifyNat ZifyN Field.
From Verif Require Import Cpp Lib_list Proof_bits Model_gf Model_rs Spec_gf Lib_gf2lin Lib_gf2poly Lib_gf Lib_field Lib_poly Lib_rs Proof_gf Proof_gffield Proof_crs1 Proof_crs2 Proof_rs1 Proof_rs2 Proof_rs3.
Local Open Scope N_scope.

Section S.
Variable G : gf.
Hypothesis OK : gf_ok G.
Notation Q := (2 ^ gf_M G).
Notation Q1 := (2 ^ gf_M G - 1).
Notation F := (gf_fld G OK).
Notation I := (inn G OK : N -> car F).
Notation ridx := (ridx G OK).
Notation rv := (rv G OK).
Notation pl := (pl G OK).
Notation al := (al G OK).
Notation Xp := (Xp G OK).
Notation sq := (sq G OK).
Notation smallq := (Forall (fun x => x < Q)).
Notation disc := (disc F).
Notation deriv := (deriv F).
Notation Rp p := (fpow al (S p)).
Add Field FFr4 : (fth (gf_fld G OK)).
Variables NR FCR : nat.
Hypothesis HNR : (1 <= NR)%nat.
Hypothesis HNQ : (NR < N.to_nat Q1)%nat.
Hypothesis HFCR : (FCR < N.to_nat Q1)%nat.
Let c2 : forall x : car F, fadd x x = f0 := C2 G OK.

(** ** evaluator *)
Lemma evaluator_ok s C deg : smallq s -> length s = NR -> smallq C -> length C = S NR -> (deg <= NR)%nat ->
  let m := Nat.min deg (NR - 1) in
  exists ev d, rs_evaluator G NR s C deg = Ok (ev, d) /\ (-1 <= d <= Z.of_nat m)%Z /\
    (forall i, (i <= m)%nat -> exists x, nth i ev None = Some x /\ rv x (disc (pl C) (sq s) i)) /\
    (forall i, (i <= m)%nat -> (d < Z.of_nat i)%Z -> disc (pl C) (sq s) i = f0).
Proof.
  intros SS LS SC LC Hd m. unfold rs_evaluator. fold m.
  edestruct (for_up_inv (fun i '((ev, d) : list (option N) * Z) => length ev = NR /\ (-1 <= d < Z.of_nat i)%Z /\
    (forall a, (a < i)%nat -> exists x, nth a ev None = Some x /\ rv x (disc (pl C) (sq s) a)) /\
    (forall a, (a < i)%nat -> (d < Z.of_nat a)%Z -> disc (pl C) (sq s) a = f0))) as (st & E & HI).
  4: { destruct st as [ev d]. exists ev, d. split; [exact E|]. destruct HI as (_ & A & B & D). split; [lia|]. split; intros a Ha; [apply B; lia|apply D; lia]. }
  - lia.
  - intros i [ev d] Hi (LE & Hd' & HV & HZ). cbv beta.
    destruct (rd_rv G OK s i SS ltac:(lia)) as (x & Ex & Rx). rewrite Ex. cbn [bind]. destruct (rd_rv G OK C 0 SC ltac:(lia)) as (l & El & Rl). rewrite El. cbn [bind].
    destruct (rv_mul G OK _ _ _ _ Rx Rl) as (p & Ep & Rp). rewrite Ep. cbn [bind]. unfold wru at 1. rewrite wr_Ok by lia. cbn [bind].
    edestruct (for_up_inv (fun j (e : list (option N)) => length e = NR /\ (forall a, (a < i)%nat -> nth a e None = nth a ev None) /\
       exists y, nth i e None = Some y /\ rv y (fsum j (fun a => fmul (nth a (pl C) f0) (sq s (i - a)%nat))))) as (e & E & L1 & H1 & y & Ey & Ry).
    4: { rewrite E. cbn [bind]. rewrite (rdu_nth _ _ _ Ey). cbn [bind]. eexists. split; [reflexivity|]. change (rv y (disc (pl C) (sq s) i)) in Ry.
      split; [exact L1|]. assert (HV' : forall a, (a < S i)%nat -> exists x0 : N, nth a e None = Some x0 /\ rv x0 (disc (pl C) (sq s) a)).
      { intros a Ha. destruct (Nat.eq_dec a i) as [->|]; [exists y; auto|]. rewrite H1 by lia. apply HV. lia. }
      destruct (rv_nz G OK _ _ Ry) as [(N0 & Z0)|(N0 & Z0)]; rewrite N0; (split; [lia|]); (split; [exact HV'|]).
      - intros a Ha Hda. destruct (Nat.eq_dec a i) as [->|]; [exact Z0|apply HZ; lia].
      - intros a Ha Hda. lia. }
    + lia.
    + intros j e Hj (L1 & H1 & y & Ey & Ry). cbv beta. destruct (rd_rv G OK s (i - j) SS ltac:(lia)) as (x' & Ex' & Rx'). rewrite Ex'. cbn [bind].
      destruct (rd_rv G OK C j SC ltac:(lia)) as (l' & El' & Rl'). rewrite El'. cbn [bind].
      destruct (rv_mul G OK _ _ _ _ Rx' Rl') as (p' & Ep' & Rp'). rewrite Ep'. cbn [bind]. rewrite (rdu_nth _ _ _ Ey). cbn [bind].
      destruct (rv_add G OK _ _ _ _ Ry Rp') as (z & _ & Ez & Rz). rewrite Ez. cbn [bind]. unfold wru. rewrite wr_Ok by lia. eexists. split; [reflexivity|].
      split; [rewrite length_upd; exact L1|]. split.
      * intros a Ha. rewrite nth_upd. destruct (Nat.eqb_spec i a); [lia|]. cbn [andb]. apply H1. exact Ha.
      * exists z. rewrite nth_upd, Nat.eqb_refl. replace (i <? length e)%nat with true by lia. split; [reflexivity|]. cbn [fsum].
        match goal with |- rv z ?t => match type of Rz with rv z ?u => replace t with u; [exact Rz|] end end. unfold Proof_rs1.sq. ring.
    + split; [rewrite length_upd; exact LE|]. split.
      * intros a Ha. rewrite nth_upd. destruct (Nat.eqb_spec i a); [lia|]. reflexivity.
      * exists p. rewrite nth_upd, Nat.eqb_refl. replace (i <? length ev)%nat with true by lia. split; [reflexivity|]. cbn [fsum]. rewrite Nat.sub_0_r.
        match goal with |- rv p ?t => match type of Rp with rv p ?u => replace t with u; [exact Rp|] end end. unfold Proof_rs1.sq. ring.
  - split; [unfold uninit; apply repeat_length|]. split; [lia|]. split; intros; lia.
Qed.

(** ** magnitudes *)
(** value of the evaluator *)
Definition omega (s C : list N) (deg : nat) (x : car F) : car F := fsum (S (Nat.min deg (NR - 1))) (fun j => fmul (disc (pl C) (sq s) j) (fpow x j)).
(** the error value at position p *)
Definition ymag (s C : list N) (deg p : nat) : car F := fmul (fmul (Xp p) (fdiv (omega s C deg (Rp p)) (deriv (pl C) (Rp p)))) (fpow (Rp p) FCR).
Lemma Xp_Rp p : (p < N.to_nat Q1)%nat -> finv (Xp p) = Rp p /\ fmul (Xp p) (Rp p) = f1.
Proof.
  intros H. pose proof (Xp_inv G OK p H) as E. split; [exact E|]. rewrite <- E. field. apply (Xp_neq G OK).
Qed.
Lemma magnitudes_ok s C deg locs pos ev d mags : smallq s -> length s = NR -> smallq C -> length C = S NR -> (deg <= NR)%nat ->
  nth 0 (pl C) f0 = f1 -> (forall i, (deg < i)%nat -> nth i (pl C) f0 = f0) -> found G OK C deg locs pos ->
  rs_evaluator G NR s C deg = Ok (ev, d) -> (deg <= length mags)%nat ->
  exists mags', rs_magnitudes G FCR C locs deg ev d mags = Ok mags' /\ length mags' = length mags /\
    forall i, (i < deg)%nat -> exists y, nth i mags' None = Some y /\ rv y (ymag s C deg (nth i pos 0%nat)).
Proof.
  intros SS LS SC LC Hd C0 Ch (LP & ND & FR & HL) EE LM.
  destruct (evaluator_ok s C deg SS LS SC LC Hd) as (ev' & d' & EE' & Hdd & HV & HZ). rewrite EE in EE'. injection EE' as <- <-. set (m := Nat.min deg (NR - 1)) in *.
  unfold rs_magnitudes.
  destruct (fill_u (fun i y => rv y (ymag s C deg (nth i pos 0%nat))) 0 deg (fun i magnitudes =>
    l <- rdu locs i ;;
    one <- mkIndexI G 1 ;;
    root <- i_mul G l one ;;
    e0 <- rdu ev 0 ;;
    '(eval, tmp) <- for_up 1 (Z.to_nat (d + 1)) (fun j '(eval, tmp) =>
       e <- rdu ev j ;;
       p <- vi_mul G e tmp ;;
       eval <- v_add_assign G eval p ;;
       tmp <- i_mul_assign G tmp root ;;
       Ok (eval, tmp)) (e0, root) ;;
    if negb (nz eval) then
      z <- mkValueI G 0 ;; wru magnitudes i z
    else
      l1 <- rd C 1 ;;
      root2 <- i_mul G root root ;;
      '(deriv, tmp2) <- for_step 3 (S deg) 2 (fun j '(deriv, tmp2) =>
         l <- rd C j ;;
         p <- vi_mul G l tmp2 ;;
         deriv <- v_add_assign G deriv p ;;
         tmp2 <- i_mul_assign G tmp2 root2 ;;
         Ok (deriv, tmp2)) (l1, root2) ;;
      ie <- gf_index G eval ;; id <- gf_index G deriv ;;
      mag <- i_div G ie id ;;
      mag <- (if (FCR =? 0)%nat then i_div_assign G mag root else Ok mag) ;;
      mag <- (if (1 <? FCR)%nat then for_up 1 FCR (fun _ mag => i_mul_assign G mag root) mag else Ok mag) ;;
      v <- gf_value G mag ;;
      wru magnitudes i v) mags) as (mags' & EM & LM' & VM & _).
  { lia. } { lia. }
  2: { exists mags'. split; [exact EM|]. split; [exact LM'|]. intros i Hi. apply VM. lia. }
  intros i u Hi. cbv beta. rewrite (rdu_nth _ _ _ (HL i ltac:(lia))). cbn [bind]. set (p := nth i pos 0%nat).
  assert (isroot G OK C p) as (Hp & Zp). { apply (proj1 (Forall_nth (isroot G OK C) pos) FR). lia. }
  destruct (Xp_Rp p Hp) as (XI & XR).
  destruct (one_ok G OK ltac:(lia)) as (one & Eo & Ro). rewrite Eo. cbn [bind].
  destruct (ridx_mul G OK _ _ _ _ (ridx_pow G OK p ltac:(lia)) Ro) as (root & Er & _ & Rr). rewrite Er. cbn [bind].
  assert (ER : fmul (fpow al p) al = Rp p) by (cbn [fpow]; ring). rewrite ER in Rr.
  destruct (HV 0%nat ltac:(lia)) as (e0 & Ee0 & Re0). rewrite (rdu_nth _ _ _ Ee0). cbn [bind].
  assert (EVAL : exists ev1 tmp, for_up 1 (Z.to_nat (d + 1)) (fun j '((eval, tmp) : N * N) =>
       e <- rdu ev j ;; p <- vi_mul G e tmp ;; eval <- v_add_assign G eval p ;; tmp <- i_mul_assign G tmp root ;; Ok (eval, tmp)) (e0, root) = Ok (ev1, tmp) /\ rv ev1 (omega s C deg (Rp p))).
  { destruct (Z.le_gt_cases d 0) as [D0|D0].
    - rewrite for_up_nil by lia. exists e0, root. split; [reflexivity|]. unfold omega. fold m.
      rewrite (fsum_more F 1 (S m)); [|lia|intros j Hj; rewrite HZ by lia; ring]. cbn [fsum fpow].
      assert (EE1 : forall z : car F, fadd f0 (fmul z f1) = z) by (intros; ring). rewrite EE1. exact Re0.
    - edestruct (for_up_inv (fun j '((e1, tmp) : N * N) => ridx tmp (fpow (Rp p) j) /\ rv e1 (fsum j (fun j => fmul (disc (pl C) (sq s) j) (fpow (Rp p) j))))) as (st & E & HI).
      4: { rewrite E. destruct st as [e1 tmp]. exists e1, tmp. split; [reflexivity|]. destruct HI as (_ & HI). unfold omega. fold m.
           rewrite (fsum_more F (Z.to_nat (d + 1)) (S m)); [exact HI|lia|]. intros j Hj. rewrite HZ by lia. ring. }
      + lia.
      + intros j [e1 tmp] Hj (Rt & Re). cbv beta. destruct (HV j ltac:(lia)) as (x & Ex & Rx). rewrite (rdu_nth _ _ _ Ex). cbn [bind].
        destruct (rv_vi G OK _ _ _ _ Rx Rt) as (q & Eq & _ & Rq). rewrite Eq. cbn [bind]. destruct (rv_add G OK _ _ _ _ Re Rq) as (z & _ & Ez & Rz). rewrite Ez. cbn [bind].
        destruct (ridx_mul G OK _ _ _ _ Rt Rr) as (t & _ & Et & Rt'). rewrite Et. cbn [bind]. eexists. split; [reflexivity|]. split.
        * assert (EP : fmul (fpow (Rp p) j) (Rp p) = fpow (Rp p) (S j)) by (cbn [fpow]; ring). rewrite EP in Rt'. exact Rt'.
        * cbn [fsum]. exact Rz.
      + split.
        * assert (EP : fpow (Rp p) 1 = Rp p) by (cbn [fpow]; ring). rewrite EP. exact Rr.
        * cbn [fsum]. assert (EE1 : forall z : car F, fadd f0 (fmul z (fpow (Rp p) 0)) = z) by (intros; cbn [fpow]; ring). rewrite EE1. exact Re0. }
  destruct EVAL as (ev1 & tmp & EV1 & RV1). rewrite EV1. cbn [bind].
  destruct (rv_nz G OK _ _ RV1) as [(N1 & Z1)|(N1 & Z1)]; rewrite N1; cbn [negb].
  { rewrite (mkV0 G OK). cbn [bind]. exists 0. split; [reflexivity|]. unfold ymag. rewrite Z1.
    assert (EE1 : fmul (fmul (Xp p) (fdiv f0 (deriv (pl C) (Rp p)))) (fpow (Rp p) FCR) = f0).
    { rewrite (Fdiv_def (fth F)). ring. }
    rewrite EE1. apply (rv_0 G OK). }
  assert (D1 : (1 <= deg)%nat) by lia.
  destruct (rd_rv G OK C 1 SC ltac:(lia)) as (l1 & E1 & R1). rewrite E1. cbn [bind].
  destruct (ridx_mul G OK _ _ _ _ Rr Rr) as (root2 & E2 & _ & R2). rewrite E2. cbn [bind].
  assert (DER : exists dv tmp2, for_step 3 (S deg) 2 (fun j '((deriv, tmp2) : N * N) =>
         l <- rd C j ;; p <- vi_mul G l tmp2 ;; deriv <- v_add_assign G deriv p ;; tmp2 <- i_mul_assign G tmp2 root2 ;; Ok (deriv, tmp2)) (l1, root2) = Ok (dv, tmp2) /\ rv dv (deriv (pl C) (Rp p))).
  { unfold for_step. set (k := ((S deg - 3 + (2 - 1)) / 2)%nat).
    pose proof (Nat.div_mod (S deg - 3 + (2 - 1)) 2 ltac:(lia)) as DM. pose proof (Nat.mod_upper_bound (S deg - 3 + (2 - 1)) 2 ltac:(lia)) as DU. fold k in DM.
    edestruct (loop_inv (fun j '((dv, t2) : N * N) => ridx t2 (fpow (fmul (Rp p) (Rp p)) (S j)) /\ rv dv (fsum (S j) (fun a => fmul (nth (2 * a + 1) (pl C) f0) (fpow (fmul (Rp p) (Rp p)) a))))) as (st & E & HI).
    3: { rewrite E. destruct st as [dv t2]. exists dv, t2. split; [reflexivity|]. destruct HI as (_ & HI). rewrite Nat.add_0_l in HI.
         rewrite (deriv_odd F c2 (pl C) (Rp p) (S NR)).
         - rewrite (fsum_more F (S k) (S NR)); [exact HI|lia|]. intros a Ha. rewrite Ch by lia. ring.
         - unfold Proof_rs1.pl. rewrite map_length. lia. }
    - intros j [dv t2] Hj (Rt & Rd). cbv beta. destruct (rd_rv G OK C (3 + j * 2) SC ltac:(lia)) as (x & Ex & Rx). rewrite Ex. cbn [bind].
      destruct (rv_vi G OK _ _ _ _ Rx Rt) as (q & Eq & _ & Rq). rewrite Eq. cbn [bind]. destruct (rv_add G OK _ _ _ _ Rd Rq) as (z & _ & Ez & Rz). rewrite Ez. cbn [bind].
      destruct (ridx_mul G OK _ _ _ _ Rt R2) as (t & _ & Et & Rt'). rewrite Et. cbn [bind]. eexists. split; [reflexivity|]. split.
      + assert (EP : forall z : car F, forall n, fmul (fpow z n) z = fpow z (S n)) by (intros; cbn [fpow]; ring). rewrite EP in Rt'. exact Rt'.
      + replace (3 + j * 2)%nat with (2 * S j + 1)%nat in Rz by lia. exact Rz.
    - split.
      + assert (EP : forall z : car F, fpow z 1 = z) by (intros; cbn [fpow]; ring). rewrite EP. exact R2.
      + cbn [fsum]. assert (EE1 : forall z : car F, fadd f0 (fmul z (fpow (fmul (Rp p) (Rp p)) 0)) = z) by (intros; cbn [fpow]; ring). rewrite EE1. exact R1. }
  destruct DER as (dv & tmp2 & ED & RD). rewrite ED. cbn [bind].
  assert (DN : deriv (pl C) (Rp p) <> f0).
  { apply (deriv_neq F deg (pl C) (fun k => Rp (nth k pos 0%nat))) with (k := i); [exact Ch| | | |lia].
    - rewrite C0. apply f1_neq_0.
    - intros a b Hab E. pose proof (proj1 (Forall_nth (isroot G OK C) pos) FR) as FR'.
      apply (Rp_inj G OK ltac:(lia)) in E; [|apply FR'; lia|apply FR'; lia]. apply (proj1 (NoDup_nth pos 0%nat) ND) in E; lia.
    - intros k Hk. apply (proj1 (Forall_nth (isroot G OK C) pos) FR). lia. }
  destruct (rv_index G OK _ _ RV1 Z1) as (ie & Eie & Rie). rewrite Eie. cbn [bind]. destruct (rv_index G OK _ _ RD DN) as (id & Eid & Rid). rewrite Eid. cbn [bind].
  destruct (ridx_div_a G OK _ _ _ _ Rie Rid) as (m0 & Em0 & _ & Rm0). rewrite Em0. cbn [bind].
  set (w := fdiv (omega s C deg (Rp p)) (deriv (pl C) (Rp p))) in *.
  assert (FIN : forall mag, ridx mag (fmul (fmul (Xp p) w) (fpow (Rp p) FCR)) -> exists x, (v <- gf_value G mag ;; wru u i v) = wru u i x /\ rv x (ymag s C deg p)).
  { intros mag Rm. destruct (rv_value G OK _ _ Rm) as (v & Ev & Rv). rewrite Ev. exists v. split; [reflexivity|exact Rv]. }
  destruct (Nat.eqb_spec FCR 0) as [F0|F0].
  - destruct (ridx_div_a G OK _ _ _ _ Rm0 Rr) as (m1 & _ & Em1 & Rm1). rewrite Em1. cbn [bind]. replace (1 <? FCR)%nat with false by lia. cbn [bind].
    apply FIN. rewrite F0. cbn [fpow]. cbn [fpow] in Rm1, XR.
    match goal with |- ridx m1 ?t => match type of Rm1 with ridx m1 ?v => replace t with v; [exact Rm1|] end end.
    transitivity (fmul (fmul (Xp p) (fmul al (fpow al p))) (fdiv w (fmul al (fpow al p)))); [rewrite XR; ring|]. field. split; [apply fpow_neq|]; apply al_neq.
  - cbn [bind]. destruct (Nat.ltb_spec 1 FCR) as [F1|F1].
    + edestruct (for_up_inv (fun j mag => ridx mag (fmul (fmul (Xp p) w) (fpow (Rp p) j)))) as (mag & E & HI).
      4: { rewrite E. cbn [bind]. apply FIN. exact HI. }
      * lia.
      * intros j mag Hj Rm. cbv beta. destruct (ridx_mul G OK _ _ _ _ Rm Rr) as (t & _ & Et & Rt). exists t. split; [exact Et|].
        match goal with |- ridx t ?a => match type of Rt with ridx t ?b => replace a with b; [exact Rt|] end end. cbn [fpow]. ring.
      * match goal with |- ridx m0 ?a => replace a with w; [exact Rm0|] end. transitivity (fmul w (fmul (Xp p) (Rp p))); [rewrite XR; ring|]. cbn [fpow]. ring.
    + cbn [bind]. apply FIN. assert (FCR = 1%nat) by lia. match goal with |- ridx m0 ?a => replace a with w; [exact Rm0|] end. rewrite H.
      transitivity (fmul w (fmul (Xp p) (Rp p))); [rewrite XR; ring|]. cbn [fpow]. ring.
Qed.

(** ** the whole correction *)
(** [X] and [W] describe the errors: first those at the erased positions *)
Definition errmodel (s erasures : list N) (f e : nat) (W X : nat -> car F) : Prop :=
  (forall k, (k < f)%nat -> X k = Xp (N.to_nat (nth k erasures 0))) /\
  (forall k, (k < f + e)%nat -> X k <> f0) /\ (forall i j, (i < j < f + e)%nat -> X i <> X j) /\
  (forall k, (f <= k < f + e)%nat -> W k <> f0) /\
  (forall i, (i < NR)%nat -> sq s i = fsum (f + e) (fun k => fmul (W k) (fpow (X k) i))).
Definition corr (s erasures : list N) (f : nat) (z : Z) (locs mags : list (option N)) (C : list N) (L deg : nat) : Prop :=
  smallq C /\ length C = S NR /\ nth 0 (pl C) f0 = f1 /\ (deg <= L <= NR)%nat /\ nth deg (pl C) f0 <> f0 /\ (forall i, (deg < i)%nat -> nth i (pl C) f0 = f0) /\
  (forall j, (L <= j < NR)%nat -> disc (pl C) (sq s) j = f0) /\
  (forall i, (i < f)%nat -> isroot G OK C (N.to_nat (nth i erasures 0))) /\
  (z = (-1)%Z \/ (z = Z.of_nat deg /\ exists pos, found G OK C deg locs pos /\
     forall i, (i < deg)%nat -> exists y, nth i mags None = Some y /\ rv y (ymag s C deg (nth i pos 0%nat)))) /\
  (gap G OK C deg -> z = (-1)%Z) /\
  (~ gap G OK C deg -> forall pos, NoDup pos -> Forall (isroot G OK C) pos -> length pos = deg -> z = Z.of_nat deg) /\
  (NoDup (firstn f erasures) -> (NR <= f + 1)%nat -> deg = L) /\
  (forall e W X, errmodel s erasures f e W X -> (2 * e + f <= NR)%nat -> L = (f + e)%nat /\ deg = L /\ forall k, (k < f + e)%nat -> eval (pl C) (finv (X k)) = f0).
Lemma correction_ok imap s locs mags erasures f : imap_ok G OK imap -> smallq s -> length s = NR -> (exists i, (i < NR)%nat /\ sq s i <> f0) ->
  length locs = NR -> length mags = NR -> (f <= NR)%nat -> (f <= length erasures)%nat -> (forall i, (i < f)%nat -> nth i erasures 0 < Q1) ->
  exists z locs' mags' C L deg, rs_correction G NR FCR imap s locs mags erasures f = Ok (z, locs', mags') /\ length locs' = NR /\ length mags' = NR /\ corr s erasures f z locs' mags' C L deg.
Proof.
  intros HI SS LS SN LL LM Hf LE HE. unfold rs_correction. replace (f <=? NR)%nat with true by lia. cbn [assert_ bind].
  destruct (erasure_locator_ok G OK NR erasures f Hf LE HE) as (C0 & E0 & SC0 & LC0 & C00 & Ch0 & CR0). rewrite E0. cbn [bind].
  set (XE := fun k => Xp (N.to_nat (nth k erasures 0))).
  destruct (bm_ok G OK NR f s C0 (fun n c b L m => ((forall k, (k < f)%nat -> eval c (finv (XE k)) = f0 /\ eval b (finv (XE k)) = f0) /\
     forall e W X, errmodel s erasures f e W X -> (L <= f + e)%nat) /\
     (NoDup (firstn f erasures) -> (n <= f + 1)%nat -> nth L c f0 <> f0 /\ (n = f -> b = c /\ m = 1%nat /\ L = f)))) as (C & B & L & m & EB & (SC & LC & _ & _ & BI) & (HR & HLe) & HFD); try assumption.
  { split; [split; [intros k Hk; split; apply CR0; exact Hk|]; intros; lia|]. intros ND _. split; [|auto].
    intros Z. apply (f1_neq_0 F). rewrite <- C00. apply (too_many_roots F f (pl C0) (fun k => finv (XE k))).
    - intros i Hi. destruct (Nat.eq_dec i f) as [->|]; [exact Z|apply Ch0; lia].
    - intros i j Hij E. unfold XE in E. pose proof (HE i ltac:(lia)). pose proof (HE j ltac:(lia)). rewrite !(Xp_inv G OK) in E by lia. apply (Rp_inj G OK ltac:(lia)) in E; try lia.
      apply N2Nat.inj in E. assert (LF : length (firstn f erasures) = f) by (rewrite firstn_length; lia).
      assert (i = j); [|lia]. apply (proj1 (NoDup_nth (firstn f erasures) 0) ND); [lia|lia|]. rewrite !nth_firstn'. replace (i <? f)%nat with true by lia. replace (j <? f)%nat with true by lia. exact E.
    - intros k Hk. apply CR0. exact Hk. }
  { intros n C1 B1 L1 m1 C1' B1' L1' m1' Hn (_ & _ & _ & _ & BI) ((R1 & R2) & R3) _ Hroot Hlen Hcomb. split; [split|].
    - intros k Hk. destruct (R1 k Hk). apply Hroot; assumption.
    - intros e W X EM. destruct Hlen as [(-> & _)|(Hd & ->)]; [apply (R2 e W X EM)|]. destruct EM as (A1 & A2 & A3 & A4 & A5).
      pose proof (bm_short F f e NR W X (sq s) A2 A3 A4 A5 n _ _ _ _ BI ltac:(lia)) as SH.
      assert (n + 1 <= L1 + e)%nat; [|lia]. apply SH; [|exact Hd]. intros k Hk. rewrite A1 by exact Hk. apply R1. exact Hk.
    - intros ND Hn1. assert (n = f) by lia. subst n. destruct (R3 ND ltac:(lia)) as (A & B). destruct (B eq_refl) as (EB1 & -> & ->). rewrite EB1 in Hcomb.
      split; [|intros; lia]. destruct Hlen as [(-> & [Zd|Zd])|(Hd & ->)]; [|lia|].
      + rewrite Hcomb. destruct BI as (_ & _ & _ & HC & _). destruct (Nat.leb_spec 1 f).
        * rewrite Zd. intros Z. apply A. etransitivity; [|exact Z]. ring.
        * intros Z. apply A. etransitivity; [|exact Z]. ring.
      + replace (f + f + 1 - f)%nat with (S f) by lia. rewrite Hcomb. destruct BI as (_ & _ & _ & HC & _). rewrite HC by lia. cbn [Nat.leb]. replace (S f - 1)%nat with f by lia.
        intros Z. apply (fmul_neq F _ _ Hd A). etransitivity; [|exact Z]. ring. }
  rewrite EB. cbn [bind]. pose proof BI as ((HL1 & HL2) & _ & CC0 & CCh & CZ & _).
  assert (L0 : L <> 0%nat).
  { intros ->. assert (f = 0%nat) by lia. subst f. destruct SN as (i & Hi & Hs). apply Hs. apply (bm_zero_len F _ _ _ _ _ BI i Hi). }
  replace (negb (L =? 0))%nat with true by lia. cbn [assert_ bind]. replace (L <=? NR)%nat with true by lia. cbn [assert_ bind].
  destruct (rd_rv G OK C 0 SC ltac:(lia)) as (l0 & El0 & Rl0). rewrite El0. cbn [bind]. rewrite (mkV1 G OK). cbn [bind].
  assert (l0 = 1) as ->. { rewrite CC0 in Rl0. apply (rv_inj G OK l0 1 f1 Rl0). apply (rv_1 G OK). }
  rewrite (v_eq_ok G OK) by apply (rv_1 G OK). cbn [N.eqb Pos.eqb bind assert_].
  destruct (degree_ok G OK C L SC ltac:(lia) CC0) as (deg & Ed & Hdeg & Cd & Chd). rewrite Ed. cbn [bind].
  assert (Ch : forall i, (deg < i)%nat -> nth i (pl C) f0 = f0). { intros i Hi. destruct (Nat.le_gt_cases i L); [apply Chd; lia|apply CCh; lia]. }
  destruct (search_ok G OK ltac:(lia) C NR deg SC LC HNQ ltac:(lia) CC0 Cd Ch imap locs HI ltac:(lia)) as (cnt & locs' & pos & Es & Ll' & FO & SG & SNG). rewrite Es. cbn [bind].
  pose proof FO as (F1 & F2 & F3 & F4). pose proof (roots_le G OK ltac:(lia) C NR deg LC HNQ ltac:(lia) CC0 Ch pos F2 F3) as Fle.
  assert (ERR : forall e W X, errmodel s erasures f e W X -> (2 * e + f <= NR)%nat -> L = (f + e)%nat /\ deg = L /\ forall k, (k < f + e)%nat -> eval (pl C) (finv (X k)) = f0).
  { intros e W X EM H2. pose proof EM as (A1 & A2 & A3 & A4 & A5).
    destruct (bm_final F f e NR W X (sq s) A2 A3 A4 A5 _ _ _ _ BI H2 (HLe e W X EM)) as (B1 & B2 & B3).
    - intros k Hk. rewrite A1 by exact Hk. apply HR. exact Hk.
    - split; [exact B1|]. split; [|exact B3]. destruct (Nat.eq_dec deg L) as [|Hne]; [assumption|exfalso]. apply B2. rewrite <- B1. apply Chd. lia. }
  assert (FULL : NoDup (firstn f erasures) -> (NR <= f + 1)%nat -> deg = L).
  { intros ND Hf1. destruct (HFD ND Hf1) as (A & _). destruct (Nat.eq_dec deg L) as [|Hne]; [assumption|exfalso]. apply A. apply Chd. lia. }
  assert (ERA : forall i, (i < f)%nat -> isroot G OK C (N.to_nat (nth i erasures 0))).
  { intros i Hi. specialize (HE i Hi). split; [lia|]. pose proof (Xp_Rp (N.to_nat (nth i erasures 0)) ltac:(lia)) as (XI & _). rewrite <- XI. apply HR. exact Hi. }
  destruct (Nat.ltb_spec cnt deg) as [Hlt|Hge].
  - exists (-1)%Z, locs', mags, C, L, deg. split; [reflexivity|]. split; [lia|]. split; [exact LM|].
    split; [exact SC|]. split; [exact LC|]. split; [exact CC0|]. split; [lia|]. split; [exact Cd|]. split; [exact Ch|]. split; [exact CZ|]. split; [exact ERA|]. split; [left; reflexivity|]. split; [reflexivity|]. split; [|split; [exact FULL|exact ERR]].
    intros NG pos' ND' HR' LP'. specialize (SNG NG pos' ND' HR' LP'). lia.
  - assert (cnt = deg) as -> by lia. unfold rs_forney. destruct (evaluator_ok s C deg SS LS SC LC ltac:(lia)) as (ev & d & EE & _). rewrite EE. cbn [bind].
    destruct (magnitudes_ok s C deg locs' pos ev d mags SS LS SC LC ltac:(lia) CC0 Ch FO EE ltac:(lia)) as (mags' & EM & LM' & VM). rewrite EM. cbn [bind].
    exists (Z.of_nat deg), locs', mags', C, L, deg. split; [reflexivity|]. split; [lia|]. split; [lia|].
    split; [exact SC|]. split; [exact LC|]. split; [exact CC0|]. split; [lia|]. split; [exact Cd|]. split; [exact Ch|]. split; [exact CZ|]. split; [exact ERA|]. split; [right; split; [reflexivity|]; exists pos; auto|]. split; [|split; [auto|split; [exact FULL|exact ERR]]].
    intros GP. specialize (SG GP). destruct GP as (D2 & _). lia.
Qed.
End S.
