(** Proofs about Model_rs: totality, unchanged on failure, and when the result is a codeword. *)
From Coq Require Import ZifyBool ZifyNat ZifyN Field.
From Verif Require Import Cpp Lib_list Proof_bits Model_gf Model_rs Spec_gf Spec_rs Lib_gf2lin Lib_gf2poly Lib_gf Lib_field Lib_poly Lib_rs Proof_gf Prop_gf Proof_gffield Proof_crs1 Proof_crs2 Proof_rs1 Proof_rs2 Proof_rs3 Proof_rs4 Proof_rs5 Proof_rs6 Proof_rs7.
Local Open Scope N_scope.

Lemma differing_same u : differing u u = [].
Proof. unfold differing. induction (seq 0 (length u)) as [|h l IH]; [reflexivity|]. cbn [filter]. rewrite N.eqb_refl. exact IH. Qed.
Lemma word_inj len d p d' p' : length d = length d' -> length p = length p' -> (len <= length d)%nat -> word len d p = word len d' p' -> skipn len d = skipn len d' -> d = d' /\ p = p'.
Proof.
  intros L1 L2 Hl E S. unfold word in E.
  assert (E1 : firstn len d = firstn len d').
  { apply (f_equal (firstn len)) in E. rewrite !firstn_app, !firstn_length, !firstn_firstn, !Nat.min_id in E. rewrite !Nat.min_l, Nat.sub_diag in E by lia. cbn [firstn] in E. rewrite !app_nil_r in E. exact E. }
  assert (E2 : p = p') by (rewrite E1 in E; apply app_inv_head in E; exact E). split; [|exact E2]. rewrite <- (firstn_skipn len d), <- (firstn_skipn len d'), E1, S. reflexivity.
Qed.

Section S.
Variable G : gf.
Hypothesis OK : gf_ok G.
Notation Q := (2 ^ gf_M G).
Notation Q1 := (2 ^ gf_M G - 1).
Notation F := (gf_fld G OK).
Notation I := (inn G OK : N -> car F).
Notation pl := (pl G OK).
Notation al := (al G OK).
Notation Xp := (Xp G OK).
Notation sq := (sq G OK).
Notation smallq := (Forall (fun x => x < Q)).
Notation Rp p := (fpow al (S p)).
Add Field FFr8 : (fth (gf_fld G OK)).
Let c2 : forall x : car F, fadd x x = f0 := C2 G OK.
Variables NR FCR : nat.
Hypothesis HNR : (1 <= NR)%nat.
Hypothesis HNQ : (NR < N.to_nat Q1)%nat.
Hypothesis HFCR : (FCR < N.to_nat Q1)%nat.
Notation syn := (syn G OK FCR).
Notation ymag := (ymag G OK NR FCR).
Notation corr := (corr G OK NR FCR).
Notation outcome := (outcome G OK NR FCR).
Notation isroot := (isroot G OK).
Notation found := (found G OK).

Variables (len f : nat) (data parity er : list N).
Notation w := (word len data parity).
Notation n := (len + NR)%nat.
Notation off := (rs_K G NR - len)%nat.
Hypothesis SD : smallq data.
Hypothesis SP : smallq parity.
Hypothesis LP : length parity = NR.
Hypothesis Hlen : (1 <= len <= rs_K G NR)%nat.
Hypothesis Hdata : (len <= length data)%nat.
Hypothesis Hf : (f <= length er)%nat.
Hypothesis HE : forall i, (i < f)%nat -> nth i er 0 < N.of_nat n.

Lemma off_n' : (off + n = N.to_nat Q1)%nat.
Proof. clear - Hlen HNQ. unfold rs_K in *. change (gf_N G) with Q1 in *. lia. Qed.
(** positions of an applied correction *)
Lemma applied_at w' pos deg y : length pos = deg -> applied G OK off w w' pos deg y -> Forall (fun p => (off <= p)%nat) pos ->
  forall t, (In (off + t)%nat pos /\ I (nth t w' 0) = fadd (I (nth t w 0)) (y (off + t)%nat)) \/ (~ In (off + t)%nat pos /\ nth t w' 0 = nth t w 0).
Proof.
  intros LPo (A1 & A2) HO t. destruct (In_dec Nat.eq_dec (off + t)%nat pos) as [H|H].
  - left. split; [exact H|]. apply (In_nth _ _ 0%nat) in H. destruct H as (i & Hi & E). specialize (A1 i ltac:(lia)). rewrite E in A1. replace (off + t - off)%nat with t in A1 by lia. exact A1.
  - right. split; [exact H|]. apply A2. intros i Hi E. apply H. rewrite <- E. apply nth_In. lia.
Qed.
Lemma applied_count d' p' C locs pos deg y : found C deg locs pos -> applied G OK off w (word len d' p') pos deg y -> Forall (fun p => (off <= p)%nat) pos ->
  smallq d' -> smallq p' -> length p' = NR -> length d' = length data ->
  length (filter (nzb G OK y) pos) = length (differing w (word len d' p')).
Proof.
  intros FO AP HO SD' SP' LP' LD'. pose proof FO as (LPo & NDp & FR & _). pose proof (applied_at _ _ _ _ LPo AP HO) as AT.
  assert (SW : smallq (word len d' p')) by (unfold word; apply Forall_app; split; [apply Forall_firstn'; exact SD'|exact SP']).
  pose proof off_n' as HOn. pose proof (len_w NR len data parity LP Hdata) as LW.
  rewrite <- (map_length (fun t => (off + t)%nat) (differing w _)). apply NoDup_same_length.
  - apply NoDup_filter. exact NDp.
  - apply NoDup_map_inj; [intros; lia|apply NoDup_differing].
  - intros p. rewrite filter_In, in_map_iff. split.
    + intros (Hp & NZ). pose proof (proj1 (Forall_forall _ _) HO p Hp) as Hpo. cbv beta in Hpo. exists (p - off)%nat. split; [lia|]. apply In_differing.
      assert (Hlt : (p < N.to_nat Q1)%nat) by (apply (proj1 (Forall_forall _ _) FR p Hp)).
      split; [lia|]. intros E. destruct (AT (p - off)%nat) as [(_ & E1)|(H & _)]; [|apply H; replace (off + (p - off))%nat with p by lia; exact Hp].
      replace (off + (p - off))%nat with p in E1 by lia. rewrite <- E in E1. unfold nzb in NZ. destruct (fdec (y p) f0) as [_|N0]; [discriminate|]. apply N0.
      assert (E0 : forall a b : car F, a = fadd a b -> b = f0) by (intros a b Hab; transitivity (fsub (fadd a b) a); [ring|rewrite <- Hab; ring]).
      apply (E0 _ _ E1).
    + intros (t & <- & Ht). apply In_differing in Ht. destruct Ht as (Ht & Hd). destruct (AT t) as [(H & E)|(_ & E)]; [|congruence].
      split; [exact H|]. unfold nzb. destruct (fdec (y (off + t)%nat) f0) as [Z|_]; [exfalso|reflexivity]. apply Hd. apply (I_inj G OK); [apply small_nth; [exact OK|apply (small_w G len data parity SD SP)]|apply small_nth; [exact OK|exact SW]|].
      rewrite E, Z. assert (E0 : forall a : car F, a = fadd a f0) by (intros; ring). apply E0.
Qed.

(** what the caller can rely on in every case *)
Lemma total d' p' er' z : outcome len f data parity er d' p' er' z ->
  (z = (-1)%Z /\ d' = data /\ p' = parity) \/ (z = Z.of_nat (length (differing w (word len d' p'))) /\ (z <= Z.of_nat NR)%Z).
Proof.
  intros (H1 & H2 & H3 & H4 & H5 & H6 & H7 & H8).
  destruct H8 as [(-> & -> & -> & Z)|(s & z0 & locs & mags & C & L & deg & Ls & QS & SN & CO & H8)].
  { right. rewrite differing_same. cbn. split; [reflexivity|lia]. }
  pose proof CO as (_ & _ & _ & (HdL & HL) & _ & _ & _ & _ & ZZ & _).
  destruct H8 as [(-> & -> & -> & Hz)|(Ez & D1 & pos & FO & H8)].
  { destruct ZZ as [->|(-> & _)]; [left; auto|right]. rewrite differing_same. cbn. lia. }
  destruct H8 as [(-> & -> & -> & _)|(HO & AP & Ec)]; [left; auto|right].
  rewrite Ec. rewrite (applied_count d' p' C locs pos deg _ FO AP HO) by assumption. split; [reflexivity|].
  rewrite <- (applied_count d' p' C locs pos deg _ FO AP HO) by assumption. destruct FO as (LPo & _).
  assert (length (filter (nzb G OK (ymag s C deg)) pos) <= length pos)%nat by (clear; induction pos as [|h l IH]; [cbn; lia|]; cbn [filter]; destruct (nzb _ _ _ _); cbn [length]; lia). lia.
Qed.
Lemma total_unchanged d' p' er' z : outcome len f data parity er d' p' er' z -> (z <= 0)%Z -> d' = data /\ p' = parity.
Proof.
  intros HO Hz. pose proof HO as (H1 & H2 & H3 & H4 & H5 & _). destruct (total _ _ _ _ HO) as [(_ & A & B)|(E & _)]; [auto|].
  assert (D : differing w (word len d' p') = []) by (destruct (differing w (word len d' p')); [reflexivity|cbn in E; lia]).
  assert (EW : w = word len d' p').
  { apply (list_ext _ _ 0); [rewrite !length_word by lia; lia|]. intros t Ht. destruct (N.eq_dec (nth t w 0) (nth t (word len d' p') 0)) as [X|X]; [exact X|].
    exfalso. assert (Hin : In t (differing w (word len d' p'))) by (apply In_differing; auto). rewrite D in Hin. exact Hin. }
  apply (word_inj len d' p' data parity); try assumption; try lia. symmetry. exact EW.
Qed.
(** with all but at most one of the check symbols used for erasures a non-negative result is a codeword *)
Lemma codeword_when d' p' er' z : outcome len f data parity er d' p' er' z -> NoDup (firstn f er) -> (NR <= f + 1)%nat -> (0 <= z)%Z ->
  forall i, (i < NR)%nat -> syn (word len d' p') i = f0.
Proof.
  intros (H1 & H2 & H3 & H4 & H5 & H6 & H7 & H8) ND HN Hz i Hi.
  destruct H8 as [(-> & -> & -> & Z)|(s & z0 & locs & mags & C & L & deg & Ls & QS & SN & CO & H8)]; [apply Z; exact Hi|].
  pose proof CO as (SCl & LCl & C0 & (HdL & HL) & Cd & Ch & HZ & _ & ZZ & _ & _ & FULL & _).
  pose proof off_n' as HOn.
  assert (EdL : deg = L).
  { apply FULL; [|exact HN]. replace (firstn f er') with (map (fun x => x + N.of_nat off) (firstn f er)); [apply NoDup_map_inj; [intros; lia|exact ND]|].
    apply (list_ext _ _ 0); [rewrite map_length, !firstn_length; lia|]. intros k Hk. rewrite map_length, firstn_length in Hk.
    rewrite (nth_indep _ 0 (0 + N.of_nat off)) by (rewrite map_length, firstn_length; lia). rewrite (map_nth (fun x => x + N.of_nat off)).
    rewrite !nth_firstn'. replace (k <? f)%nat with true by lia. symmetry. apply H7. lia. }
  destruct H8 as [(-> & -> & -> & Hz0)|(Ez & D1 & pos & FO & H8)].
  { assert (D0 : deg = 0%nat) by (destruct ZZ as [->|(-> & _)]; lia). specialize (HZ i ltac:(lia)). rewrite <- QS by exact Hi.
    unfold disc in HZ. rewrite (fsum_single F (S i) _ 0) in HZ.
    - rewrite C0, Nat.sub_0_r in HZ. etransitivity; [|exact HZ]. ring.
    - lia.
    - intros a Ha Hne. rewrite Ch by lia. ring. }
  destruct H8 as [(_ & _ & -> & _)|(HO & AP & Ec)]; [lia|].
  pose proof FO as (LPo & NDp & FR & _). pose proof (applied_at _ _ _ _ LPo AP HO) as AT. pose proof (len_w NR len data parity LP Hdata) as LW.
  assert (LW' : length (word len d' p') = n) by (rewrite length_word by lia; lia).
  set (X := fun k => Xp (nth k pos 0%nat)).
  assert (PB : forall k, (k < deg)%nat -> (off <= nth k pos 0 < N.to_nat Q1)%nat).
  { intros k Hk. split; [apply (proj1 (Forall_nth (fun p => (off <= p)%nat) pos) HO); lia|]. apply (proj1 (Forall_nth (isroot C) pos) FR). lia. }
  assert (DX : forall a b, (a < b < deg)%nat -> X a <> X b).
  { intros a b Hab E. pose proof (PB a ltac:(lia)). pose proof (PB b ltac:(lia)). assert (E' : finv (X a) = finv (X b)) by (rewrite E; reflexivity). unfold X in E'.
    rewrite !(Xp_inv G OK) in E' by lia. apply (Rp_inj G OK ltac:(lia)) in E'; try lia. apply (proj1 (NoDup_nth pos 0%nat) NDp) in E'; lia. }
  assert (RX : forall k, (k < deg)%nat -> eval (pl C) (finv (X k)) = f0).
  { intros k Hk. unfold X. pose proof (PB k Hk). rewrite (Xp_inv G OK) by lia. apply (proj1 (Forall_nth (isroot C) pos) FR). lia. }
  pose proof (forney_complete F c2 deg NR X (sq s) (pl C) (fun k _ => Xp_neq G OK _) DX C0 Ch RX ltac:(intros j Hj; apply HZ; lia) i Hi) as FC.
  assert (SY : syn (word len d' p') i = fadd (syn w i) (fsum deg (fun k => fmul (ymag s C deg (nth k pos 0%nat)) (fpow (X k) (FCR + i))))).
  { rewrite !(syn_sum G OK NR FCR HNR HNQ HFCR _ i off) by lia. rewrite LW, LW'.
    set (g := fun t => if in_dec Nat.eq_dec (off + t)%nat pos then fmul (ymag s C deg (off + t)) (fpow (Xp (off + t)) (FCR + i)) else f0).
    transitivity (fadd (fsum n (fun t => fmul (I (nth t w 0)) (fpow (Xp (off + t)) (FCR + i)))) (fsum n g)).
    - rewrite <- fsum_add. apply fsum_ext. intros t Ht. unfold g. destruct (in_dec Nat.eq_dec (off + t)%nat pos) as [H|H]; destruct (AT t) as [(A & B)|(A & B)]; try contradiction.
      + rewrite B. ring.
      + rewrite B. ring.
    - f_equal. rewrite (fsum_support F n g (map (fun p => (p - off)%nat) pos)).
      + rewrite map_length, LPo. apply fsum_ext. intros k Hk. rewrite (nth_indep _ 0%nat (0 - off)%nat) by (rewrite map_length; lia). rewrite (map_nth (fun p => (p - off)%nat)).
        pose proof (PB k Hk). unfold g. replace (off + (nth k pos 0 - off))%nat with (nth k pos 0)%nat by lia.
        destruct (in_dec Nat.eq_dec (nth k pos 0%nat) pos) as [H0|H0]; [reflexivity|]. exfalso. apply H0. apply nth_In. lia.
      + apply NoDup_map_inj; [|exact NDp]. intros x y Hx Hy E. pose proof (proj1 (Forall_forall _ _) HO x Hx). pose proof (proj1 (Forall_forall _ _) HO y Hy). cbv beta in *. lia.
      + apply Forall_forall. intros t Ht. apply in_map_iff in Ht. destruct Ht as (p & <- & Hp). pose proof (proj1 (Forall_forall _ _) HO p Hp). assert (Hlt : (p < N.to_nat Q1)%nat) by (apply (proj1 (Forall_forall _ _) FR p Hp)). cbv beta in *. lia.
      + intros t Ht Hn. unfold g. destruct (in_dec Nat.eq_dec (off + t)%nat pos) as [H|H]; [|reflexivity]. exfalso. apply Hn. apply in_map_iff. exists (off + t)%nat. split; [lia|exact H]. }
  rewrite SY. rewrite <- QS by exact Hi. rewrite FC. rewrite <- fsum_add. apply fsum_0. intros k Hk.
  unfold Proof_rs4.ymag. fold (X k). pose proof (PB k Hk) as Pk. destruct (Xp_Rp G OK (nth k pos 0%nat) ltac:(lia)) as (XR & XR1). fold (X k) in XR, XR1.
  rewrite <- !XR in *.
  assert (FO' : omega G OK NR s C deg (finv (X k)) = fsum deg (fun a => fmul (disc F (pl C) (sq s) a) (fpow (finv (X k)) a))).
  { unfold omega. destruct (Nat.le_gt_cases deg (NR - 1)) as [D|D].
    - rewrite Nat.min_l by exact D. cbn [fsum]. rewrite (HZ deg) by lia. ring.
    - rewrite Nat.min_r by lia. replace (S (NR - 1)) with deg by lia. reflexivity. }
  rewrite FO'. set (O := fsum deg _). set (D := deriv F (pl C) (finv (X k))).
  assert (P1 : fmul (fpow (finv (X k)) FCR) (fpow (X k) FCR) = f1).
  { rewrite <- fpow_mul. transitivity (fpow (@f1 F) FCR); [|apply fpow_1]. f_equal. field. apply Xp_neq. }
  rewrite fpow_add. transitivity (fadd (fmul (fdiv (fmul (X k) O) D) (fpow (X k) i)) (fmul (fmul (fdiv (fmul (X k) O) D) (fpow (X k) i)) (fmul (fpow (finv (X k)) FCR) (fpow (X k) FCR)))).
  - rewrite !(Fdiv_def (fth F)). ring.
  - rewrite P1. etransitivity; [|apply (c2 (fmul (fdiv (fmul (X k) O) D) (fpow (X k) i)))]. ring.
Qed.
End S.
