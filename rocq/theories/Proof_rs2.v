(** Proofs about Model_rs: generator polynomial, encoder, syndromes. *)
From Coq Require Import ZifyBool ZifyNat ZifyN Field.
From Verif Require Import Cpp Lib_list Proof_bits Model_gf Model_rs Spec_gf Lib_gf2lin Lib_gf2poly Lib_gf Lib_field Lib_poly Lib_rs Proof_gf Proof_gffield Proof_crs1 Proof_crs2 Proof_rs1.
Local Open Scope N_scope.

(** ** Horner's scheme, highest coefficient first *)
Lemma map_repeat {A B} (f : A -> B) x n : map f (repeat x n) = repeat (f x) n.
Proof. induction n as [|n IH]; [reflexivity|]. cbn [repeat map]. rewrite IH. reflexivity. Qed.
Section H.
Variable F : fld.
Add Field FFh : (fth F).
Local Open Scope fld_scope.
Fixpoint hor (x : F) (acc : F) (l : list F) : F := match l with [] => acc | c :: l' => hor x (x * acc + c) l' end.
Lemma hor_app x acc l m : hor x acc (l ++ m) = hor x (hor x acc l) m.
Proof. revert acc. induction l as [|c l IH]; intros acc; cbn; [reflexivity|]. apply IH. Qed.
Lemma hor_acc x acc l : hor x acc l = fpow x (length l) * acc + hor x 0 l.
Proof.
  revert acc. induction l as [|c l IH]; intros acc; cbn; [ring|]. rewrite IH, (IH (x * 0 + c)). ring.
Qed.
Lemma hor_sum x l : hor x 0 l = fsum (length l) (fun i => nth i l 0 * fpow x (length l - 1 - i)).
Proof.
  induction l as [|c l IH]; [reflexivity|]. cbn [hor length]. rewrite hor_acc, fsum_S_l, IH. cbn [nth].
  replace (S (length l) - 1 - 0)%nat with (length l) by lia.
  rewrite (fsum_ext F _ (fun i => nth i l 0 * fpow x (S (length l) - 1 - S i)) (fun i => nth i l 0 * fpow x (length l - 1 - i))).
  - ring.
  - intros i Hi. do 2 f_equal. lia.
Qed.
Lemma hor_zeros x n l : hor x 0 (repeat 0 n ++ l) = hor x 0 l.
Proof. induction n as [|n IH]; [reflexivity|]. cbn. replace (x * 0 + 0) with (0 : F) by ring. exact IH. Qed.
End H.
Arguments hor {F}.

Section S.
Variable G : gf.
Hypothesis OK : gf_ok G.
Notation Q := (2 ^ gf_M G).
Notation Q1 := (2 ^ gf_M G - 1).
Notation F := (gf_fld G OK).
Notation I := (inn G OK : N -> car F).
Notation ridx := (ridx G OK).
Notation rv := (rv G OK).
Notation pl := (pl G OK).
Notation al := (al G OK).
Notation smallq := (Forall (fun x => x < Q)).
Add Field FFr2 : (fth F).

Variables NR FCR : nat.
Hypothesis HNR : (1 <= NR)%nat.
Hypothesis HNQ : (NR < N.to_nat Q1)%nat.
Hypothesis HFCR : (FCR < N.to_nat Q1)%nat.

Definition rho (i : nat) : car F := fpow al (FCR + i).
Lemma rho_neq i : rho i <> f0. Proof. apply fpow_neq, al_neq. Qed.
Lemma rho_S i : rho (S i) = fmul (rho i) al.
Proof. unfold rho. replace (FCR + S i)%nat with (S (FCR + i)) by lia. cbn [fpow]. ring. Qed.
Lemma rho_pow i k : fpow (rho i) k = fpow (fpow al k) (FCR + i).
Proof. unfold rho. rewrite !fpow_fpow. f_equal. lia. Qed.
Lemma mkI_FCR : exists r, mkIndexI G FCR = Ok r /\ ridx r (rho 0).
Proof. exists (N.of_nat FCR). rewrite (mkI G OK) by lia. split; [reflexivity|]. unfold rho. rewrite Nat.add_0_r. apply ridx_pow. lia. Qed.
Lemma mkI_1 : exists r, mkIndexI G 1 = Ok r /\ ridx r al.
Proof.
  exists 1. rewrite (mkI G OK 1) by lia. split; [reflexivity|]. pose proof (ridx_pow G OK 1 ltac:(lia)) as H. cbn [fpow] in H.
  replace (fmul al f1) with al in H by (change (al = fmul al f1); ring). exact H.
Qed.

Definition gen_ok (gen : list (option N)) (g : list (car F)) : Prop :=
  (forall i, (i <= NR)%nat -> exists k, nth i gen None = Some k /\ ridx k (nth i g f0)) /\
  length g = S NR /\ nth NR g f0 = f1 /\ forall i, (i < NR)%nat -> eval g (rho i) = f0.

Lemma no_zero_coef (g : list (car F)) : length g = S NR -> nth NR g f0 = f1 -> (forall i, (i < NR)%nat -> eval g (rho i) = f0) ->
  forall a, (a <= NR)%nat -> nth a g f0 <> f0.
Proof.
  intros LG HL HR a Ha Z. destruct (Nat.eq_dec a NR) as [->|Hne]; [revert Z; rewrite HL; apply f1_neq_0|].
  set (sk := fun k => if (k <? a)%nat then k else S k).
  pose proof (vandermonde F NR (fun k => nth (sk k) g f0) (fun k => fpow al (sk k)) FCR) as V.
  apply (f1_neq_0 F). rewrite <- HL. replace NR with (sk (NR - 1)%nat) by (unfold sk; destruct (Nat.ltb_spec (NR - 1) a); lia).
  apply V; [| | |lia].
  - intros. apply fpow_neq, al_neq.
  - intros i j Hij E. apply (al_inj G OK) in E; [|unfold sk; destruct (Nat.ltb_spec i a); lia|unfold sk; destruct (Nat.ltb_spec j a); lia].
    revert E. unfold sk. destruct (Nat.ltb_spec i a), (Nat.ltb_spec j a); lia.
  - intros j Hj. replace j with (FCR + (j - FCR))%nat by lia. rewrite (fsum_ext F NR _ (fun k => fmul (nth (sk k) g f0) (fpow (rho (j - FCR)) (sk k)))).
    2: { intros k Hk. rewrite rho_pow. reflexivity. }
    transitivity (eval g (rho (j - FCR))); [|apply HR; lia]. rewrite eval_sum, LG. clear V.
    replace (S NR) with (a + S (NR - a))%nat by lia. replace NR with (a + (NR - a))%nat at 1 by lia. rewrite !fsum_split, fsum_S_l.
    rewrite Nat.add_0_r, Z.
    rewrite (fsum_ext F a (fun k => fmul (nth (sk k) g f0) (fpow (rho (j - FCR)) (sk k))) (fun i => fmul (nth i g f0) (fpow (rho (j - FCR)) i))).
    2: { intros k Hk. unfold sk. destruct (Nat.ltb_spec k a); [reflexivity|lia]. }
    rewrite (fsum_ext F (NR - a) (fun i => fmul (nth (sk (a + i)%nat) g f0) (fpow (rho (j - FCR)) (sk (a + i)%nat))) (fun i => fmul (nth (a + S i) g f0) (fpow (rho (j - FCR)) (a + S i)))).
    2: { intros k Hk. unfold sk. destruct (Nat.ltb_spec (a + k) a); [lia|]. rewrite Nat.add_succ_r. reflexivity. }
    ring.
Qed.

Lemma generator_ok : exists gen g, rs_generator G NR FCR = Ok gen /\ gen_ok gen g.
Proof.
  unfold rs_generator. destruct mkI_FCR as (r0 & E0 & R0). rewrite E0. cbn [bind]. destruct mkI_1 as (pe & Ep & Rp). rewrite Ep. cbn [bind].
  edestruct (for_up_inv (fun i '((tmp, root) : list (option N) * N) => length tmp = S NR /\ ridx root (rho i) /\
     exists g : list (car F), length g = S i /\ nth i g f0 = f1 /\ (forall k, (k < i)%nat -> eval g (rho k) = f0) /\
       forall a, (a < i)%nat -> exists x, nth a tmp None = Some x /\ rv x (nth a g f0))) as (st & E & HI).
  4: { rewrite E. clear E. destruct st as [tmp root]. destruct HI as (LT & RR & g & LG & HL & HR & HT). cbn [bind]. rewrite (mkV1 G OK). cbn [bind].
    unfold wru at 1. rewrite wr_Ok by lia. cbn [bind].
    pose proof (no_zero_coef g LG HL HR) as NZ.
    destruct (fill_u (fun i k => ridx k (nth i g f0)) 0 (S NR)
      (fun i gen => x <- rdu (upd tmp NR (Some 1)) i ;; k <- gf_index G x ;; wru gen i k) (uninit N (S NR))) as (gen & E & LGn & VG & _).
    { lia. } { unfold uninit. rewrite repeat_length. lia. }
    { intros i u Hi.
      assert (exists x, nth i (upd tmp NR (Some 1)) None = Some x /\ rv x (nth i g f0)) as (x & Ex & Rx).
      { rewrite nth_upd. destruct (Nat.eqb_spec NR i) as [<-|Hne].
        - replace (NR <? length tmp)%nat with true by lia. exists 1. split; [reflexivity|]. rewrite HL. apply rv_1.
        - cbn [andb]. apply HT. lia. }
      rewrite (rdu_nth _ _ _ Ex). cbn [bind]. destruct (rv_index G OK x _ Rx) as (k & Ek & Rk); [apply NZ; lia|]. rewrite Ek. cbn [bind]. exists k. auto. }
    rewrite E. exists gen, g. split; [reflexivity|]. split; [|auto]. intros i Hi. apply VG. lia. }
  - lia.
  - intros i [tmp root] Hi (LT & RR & g & LG & HL & HR & HT). cbv beta. rewrite (mkV1 G OK). cbn [bind]. unfold wru at 1. rewrite wr_Ok by lia. cbn [bind].
    edestruct (for_down_inv (fun j (t : list (option N)) => length t = S NR /\ forall a, (a <= i)%nat -> exists x, nth a t None = Some x /\
       rv x (if (j <=? a)%nat then fadd (fmul (rho i) (nth a g f0)) (nth (a - 1) g f0) else nth a g f0))) as (t & E & L2 & H2).
    4: { rewrite E. clear E. cbn [bind]. destruct (H2 0%nat ltac:(lia)) as (x & Ex & Rx). cbn [Nat.leb] in Rx. rewrite (rdu_nth _ _ _ Ex). cbn [bind].
      destruct (rv_vi G OK x root _ _ Rx RR) as (z & _ & Ez & Rz). rewrite Ez. cbn [bind]. unfold wru. rewrite wr_Ok by lia. cbn [bind].
      destruct (ridx_mul_a G OK root pe _ _ RR Rp) as (r & _ & Er & Rr). rewrite Er. cbn [bind]. eexists. split; [reflexivity|].
      split; [rewrite length_upd; exact L2|]. split; [rewrite rho_S; exact Rr|].
      exists (padd (f0 :: g) (pscale (rho i) g)). split; [rewrite length_padd; unfold pscale; rewrite map_length; cbn [length]; rewrite LG; lia|].
      split; [|split].
      - rewrite nth_padd, nth_pscale. cbn [nth]. rewrite HL, (nth_overflow g) by lia. ring.
      - intros k Hk. rewrite eval_padd, eval_pscale. cbn [eval]. destruct (Nat.eq_dec k i) as [->|Hne]; [|rewrite HR by lia; ring].
        transitivity (fadd (fmul (rho i) (eval g (rho i))) (fmul (rho i) (eval g (rho i)))); [ring|apply C2].
      - intros a Ha. rewrite nth_upd, nth_padd, nth_pscale. destruct a as [|a].
        + cbn [Nat.eqb]. replace (0 <? length t)%nat with true by lia. cbn [andb nth]. exists z. split; [reflexivity|].
          replace (fadd f0 (fmul (rho i) (nth 0 g f0))) with (fmul (nth 0 g f0) (rho i)) by ring. exact Rz.
        + cbn [Nat.eqb andb nth]. destruct (H2 (S a) ltac:(lia)) as (y & Ey & Ry). exists y. split; [exact Ey|]. cbn [Nat.leb] in Ry.
          replace (S a - 1)%nat with a in Ry by lia.
          replace (fadd (nth a g f0) (fmul (rho i) (nth (S a) g f0))) with (fadd (fmul (rho i) (nth (S a) g f0)) (nth a g f0)) by ring. exact Ry. }
    + lia.
    + intros j t Hj (Lt & Ht). cbv beta. destruct (Ht j ltac:(lia)) as (x & Ex & Rx). destruct (Ht (j - 1)%nat ltac:(lia)) as (y & Ey & Ry).
      rewrite (rdu_nth _ _ _ Ex), (rdu_nth _ _ _ Ey). cbn [bind].
      destruct (Nat.leb_spec (S j) j); [lia|]. destruct (Nat.leb_spec (S j) (j - 1)); [lia|].
      destruct (rv_fma_ivv G OK _ _ _ _ _ _ RR Rx Ry) as (z & Ez & Rz). rewrite Ez. cbn [bind]. unfold wru. rewrite wr_Ok by lia. eexists. split; [reflexivity|].
      split; [rewrite length_upd; exact Lt|]. intros a Ha. rewrite nth_upd. destruct (Nat.eqb_spec j a) as [<-|Hne].
      * replace (j <? length t)%nat with true by lia. cbn [andb]. rewrite Nat.leb_refl. exists z. auto.
      * cbn [andb]. destruct (Ht a Ha) as (v & Ev & Rv). exists v. split; [exact Ev|]. replace (j <=? a)%nat with (S j <=? a)%nat by lia. exact Rv.
    + split; [rewrite length_upd; exact LT|]. intros a Ha. replace (S i <=? a)%nat with false by lia. rewrite nth_upd. destruct (Nat.eqb_spec i a) as [<-|Hne].
      * replace (i <? length tmp)%nat with true by lia. cbn [andb]. exists 1. split; [reflexivity|]. rewrite HL. apply rv_1.
      * cbn [andb]. apply HT. lia.
  - split; [unfold uninit; apply repeat_length|]. split; [exact R0|]. exists [f1]. split; [reflexivity|]. split; [reflexivity|]. split; intros; lia.
Qed.

(** ** encoder *)
Lemma hor_step (p p' g : list (car F)) fb x : length p = NR -> length p' = NR -> length g = S NR -> nth NR g f0 = f1 -> eval g x = f0 ->
  (forall j, (j < NR)%nat -> nth j p' f0 = fadd (fmul fb (nth (NR - 1 - j) g f0)) (nth (S j) p f0)) ->
  hor x f0 p' = fadd (fmul x (hor x f0 p)) (fmul (fadd fb (nth 0 p f0)) (fpow x NR)).
Proof.
  intros Lp Lp' LG HL HE H. rewrite !hor_sum, Lp, Lp'.
  rewrite (fsum_ext F NR _ (fun j => fadd (fmul fb (fmul (nth (NR - 1 - j) g f0) (fpow x (NR - 1 - j)))) (fmul (nth (S j) p f0) (fpow x (NR - S j))))).
  2: { intros j Hj. rewrite H by exact Hj. replace (NR - S j)%nat with (NR - 1 - j)%nat by lia. ring. }
  rewrite fsum_add, fsum_scale, <- (fsum_rev F NR (fun j => fmul (nth j g f0) (fpow x j))).
  assert (A : fsum NR (fun j => fmul (nth j g f0) (fpow x j)) = fpow x NR).
  { rewrite eval_sum, LG in HE. cbn [fsum] in HE. rewrite HL in HE. apply (add_0_eq F (C2 G OK)). etransitivity; [|exact HE]. ring. }
  assert (B : fadd (fmul (nth 0 p f0) (fpow x NR)) (fsum NR (fun j => fmul (nth (S j) p f0) (fpow x (NR - S j)))) =
              fmul x (fsum NR (fun i => fmul (nth i p f0) (fpow x (NR - 1 - i))))).
  { pose proof (fsum_S_l F NR (fun j => fmul (nth j p f0) (fpow x (NR - j)))) as E. cbn [fsum] in E.
    rewrite Nat.sub_0_r in E. rewrite <- E. rewrite (nth_overflow p) by lia.
    rewrite (fsum_ext F NR (fun j => fmul (nth j p f0) (fpow x (NR - j))) (fun j => fmul x (fmul (nth j p f0) (fpow x (NR - 1 - j))))).
    - rewrite fsum_scale. ring.
    - intros j Hj. replace (NR - j)%nat with (S (NR - 1 - j)) by lia. cbn [fpow]. ring. }
  rewrite <- B, A.
  transitivity (fadd (fadd (fmul fb (fpow x NR)) (fsum NR (fun i => fmul (nth (S i) p f0) (fpow x (NR - S i))))) (fmul (fadd (nth 0 p f0) (nth 0 p f0)) (fpow x NR))).
  - rewrite (C2 G OK). ring.
  - ring.
Qed.

Lemma encode_ok gen g data parity len : gen_ok gen g -> smallq data -> length parity = NR -> (1 <= len <= rs_K G NR)%nat -> (len <= length data)%nat ->
  exists parity', rs_encode G NR gen data parity len = Ok parity' /\ smallq parity' /\ length parity' = NR /\
    forall i, (i < NR)%nat -> hor (rho i) f0 (pl (firstn len data ++ parity')) = f0.
Proof.
  intros (HG & LG & HL & HR) SD LP Hlen Hdata. unfold rs_encode. replace ((0 <? len) && (len <=? rs_K G NR))%nat%bool with true by lia. cbn [assert_ bind].
  destruct (fill_w 0 (fun i x => x = 0) 0 NR (fun i parity => z <- mkValueI G 0 ;; wr parity i z) parity) as (p0 & E0 & L0 & V0 & _).
  { lia. } { lia. } { intros i u Hi. rewrite (mkV0 G OK). exists 0. auto. }
  rewrite E0. cbn [bind].
  edestruct (for_up_inv (fun n (p : list N) => smallq p /\ length p = NR /\ forall i, (i < NR)%nat -> hor (rho i) f0 (pl (firstn n data ++ p)) = f0)) as (p' & E & HI).
  4: { exists p'. split; [exact E|exact HI]. }
  - lia.
  - intros n p Hn (SP & LPp & HP). cbv beta. destruct (rd_rv G OK data n SD ltac:(lia)) as (d & Ed & Rd). rewrite Ed. cbn [bind].
    destruct (rd_rv G OK p 0 SP ltac:(lia)) as (x0 & Ex0 & Rx0). rewrite Ex0. cbn [bind].
    destruct (rv_add G OK _ _ _ _ Rd Rx0) as (fb & Efb & _ & Rfb). rewrite Efb. cbn [bind].
    set (ff := fadd (nth n (pl data) f0) (nth 0 (pl p) f0)) in *.
    assert (KEY : forall p', length p' = NR -> (forall j, (j < NR)%nat -> rv (nth j p' 0) (fadd (fmul ff (nth (NR - 1 - j) g f0)) (nth (S j) (pl p) f0))) ->
       smallq p' /\ length p' = NR /\ forall i, (i < NR)%nat -> hor (rho i) f0 (pl (firstn (S n) data ++ p')) = f0).
    { intros p' Lp' Hp'. split; [apply small_intro; intros i Hi; apply Hp'; lia|]. split; [exact Lp'|].
      intros i Hi. specialize (HP i Hi). unfold Proof_rs1.pl in *. rewrite map_app, hor_app, hor_acc in HP |- *.
      rewrite (hor_step (map I p) (map I p') g ff (rho i)); try assumption.
      + rewrite (firstn_snoc data n 0) by lia. rewrite map_app, hor_app. cbn [map hor]. rewrite !map_length, Lp', LPp in *.
        transitivity (fadd (fmul (rho i) (fadd (fmul (fpow (rho i) NR) (hor (rho i) f0 (map I (firstn n data)))) (hor (rho i) f0 (map I p))))
           (fmul (fadd (I (nth n data 0)) (fadd ff (nth 0 (map I p) f0))) (fpow (rho i) NR))); [ring|].
        rewrite HP. unfold ff. change (nth n (map I data) f0) with (nth n (pl data) f0). rewrite (nth_pl G OK data n).
        transitivity (fmul (fadd (fadd (I (nth n data 0)) (I (nth n data 0))) (fadd (nth 0 (map I p) f0) (nth 0 (map I p) f0))) (fpow (rho i) NR)); [ring|].
        rewrite !(C2 G OK). ring.
      + rewrite map_length. exact LPp.
      + rewrite map_length. exact Lp'.
      + apply HR. exact Hi.
      + intros j Hj. rewrite <- (proj2 (Hp' j Hj)). apply (nth_pl G OK). }
    destruct (rv_nz G OK _ _ Rfb) as [(Nf & Zf)|(Nf & Zf)]; rewrite Nf.
    + edestruct (for_up_inv (fun j (q : list N) => length q = NR /\ (forall a, (S a < j)%nat -> nth a q 0 = nth (S a) p 0) /\ (forall a, (j <= S a)%nat -> nth a q 0 = nth a p 0))) as (q & Eq & Lq & Vq & _).
      4: { rewrite Eq. cbn [bind]. rewrite (mkV0 G OK). cbn [bind]. rewrite wr_Ok by lia. eexists. split; [reflexivity|]. apply KEY.
        - rewrite length_upd. exact Lq.
        - intros j Hj. rewrite Zf. replace (fadd (fmul f0 (nth (NR - 1 - j) g f0)) (nth (S j) (pl p) f0)) with (nth (S j) (pl p) f0) by ring.
          rewrite nth_upd. destruct (Nat.eqb_spec (NR - 1) j) as [<-|Hne].
          + replace (NR - 1 <? length q)%nat with true by lia. cbn [andb]. rewrite nth_overflow by (unfold Proof_rs1.pl; rewrite map_length; lia). apply rv_0.
          + cbn [andb]. rewrite Vq by lia. apply rv_nth. exact SP. }
      * lia.
      * intros j q Hj (Lq & Vq & Wq). cbv beta. rewrite (rd_nth q j 0) by lia. cbn [bind]. rewrite wr_Ok by lia. eexists. split; [reflexivity|].
        split; [rewrite length_upd; exact Lq|]. split; intros a Ha; rewrite nth_upd.
        -- destruct (Nat.eqb_spec (j - 1) a) as [<-|Hne].
           ++ replace (j - 1 <? length q)%nat with true by lia. cbn [andb]. rewrite Wq by lia. f_equal. lia.
           ++ cbn [andb]. apply Vq. lia.
        -- destruct (Nat.eqb_spec (j - 1) a) as [Ej|Hne]; [lia|]. cbn [andb]. apply Wq. lia.
      * split; [exact LPp|]. split; [intros; lia|reflexivity].
    + destruct (rv_index G OK _ _ Rfb Zf) as (kf & Ekf & Rkf). rewrite Ekf. cbn [bind].
      edestruct (for_up_inv (fun j (q : list N) => length q = NR /\ (forall a, (S a < j)%nat -> rv (nth a q 0) (fadd (fmul ff (nth (NR - 1 - a) g f0)) (nth (S a) (pl p) f0))) /\ (forall a, (j <= S a)%nat -> nth a q 0 = nth a p 0))) as (q & Eq & Lq & Vq & _).
      4: { rewrite Eq. cbn [bind]. destruct (HG 0%nat ltac:(lia)) as (k0 & Ek0 & Rk0). rewrite (rdu_nth _ _ _ Ek0). cbn [bind].
        destruct (ridx_mul G OK _ _ _ _ Rk0 Rkf) as (k & Ek & _ & Rk). rewrite Ek. cbn [bind]. destruct (rv_value G OK _ _ Rk) as (v & Ev & Rv). rewrite Ev. cbn [bind].
        rewrite wr_Ok by lia. eexists. split; [reflexivity|]. apply KEY.
        - rewrite length_upd. exact Lq.
        - intros j Hj. rewrite nth_upd. destruct (Nat.eqb_spec (NR - 1) j) as [<-|Hne].
          + replace (NR - 1 <? length q)%nat with true by lia. cbn [andb]. rewrite (nth_overflow (pl p)) by (unfold Proof_rs1.pl; rewrite map_length; lia).
            rewrite Nat.sub_diag. replace (fadd (fmul ff (nth 0 g f0)) f0) with (fmul (nth 0 g f0) ff) by ring. exact Rv.
          + cbn [andb]. apply Vq. lia. }
      * lia.
      * intros j q Hj (Lq & Vq & Wq). cbv beta. destruct (HG (NR - j)%nat ltac:(lia)) as (kg & Ekg & Rkg). rewrite (rdu_nth _ _ _ Ekg). cbn [bind].
        rewrite (rd_nth q j 0) by lia. cbn [bind]. rewrite Wq by lia.
        destruct (rv_fma_iiv G OK kf kg (nth j p 0) _ _ _ Rkf Rkg (rv_nth G OK p j SP)) as (z & Ez & Rz). rewrite Ez. cbn [bind].
        rewrite wr_Ok by lia. eexists. split; [reflexivity|].
        split; [rewrite length_upd; exact Lq|]. split; intros a Ha; rewrite nth_upd.
        -- destruct (Nat.eqb_spec (j - 1) a) as [<-|Hne].
           ++ replace (j - 1 <? length q)%nat with true by lia. cbn [andb]. replace (NR - 1 - (j - 1))%nat with (NR - j)%nat by lia. replace (S (j - 1)) with j by lia. exact Rz.
           ++ cbn [andb]. apply Vq. lia.
        -- destruct (Nat.eqb_spec (j - 1) a) as [Ej|Hne]; [lia|]. cbn [andb]. apply Wq. lia.
      * split; [exact LPp|]. split; [intros; lia|reflexivity].
  - assert (p0 = repeat 0 NR) as ->.
    { apply (list_ext _ _ 0); [rewrite repeat_length; lia|]. intros i Hi. rewrite V0, nth_repeat by lia. reflexivity. }
    split; [apply (small_repeat0 G OK)|]. split; [apply repeat_length|]. intros i Hi. cbn [firstn]. rewrite app_nil_l. unfold Proof_rs1.pl. rewrite map_repeat.
    rewrite <- (app_nil_r (repeat _ _)). change (I 0) with (@f0 F). rewrite hor_zeros. reflexivity.
Qed.

(** ** syndromes *)
Lemma update_ok poly b e syn (a : nat -> car F) : smallq poly -> (b <= e)%nat -> (e <= length poly)%nat -> length syn = NR ->
  (forall i, (i < NR)%nat -> exists x, nth i syn None = Some x /\ rv x (a i)) ->
  exists syn', rs_update G NR FCR poly b e syn = Ok syn' /\ length syn' = NR /\
    forall i, (i < NR)%nat -> exists x, nth i syn' None = Some x /\ rv x (hor (rho i) (a i) (pl (firstn (e - b) (skipn b poly)))).
Proof.
  intros SP Hbe He LS HS. unfold rs_update.
  edestruct (for_up_inv (fun j (syn : list (option N)) => length syn = NR /\
    forall i, (i < NR)%nat -> exists x, nth i syn None = Some x /\ rv x (hor (rho i) (a i) (pl (firstn (j - b) (skipn b poly)))))) as (s' & E & HI).
  4: { exists s'. split; [exact E|exact HI]. }
  - exact Hbe.
  - intros j s Hj (Ls & Hs). cbv beta. destruct (rd_rv G OK poly j SP ltac:(lia)) as (c & Ec & Rc). rewrite Ec. cbn [bind].
    destruct mkI_FCR as (r0 & E0 & R0). rewrite E0. cbn [bind]. destruct mkI_1 as (pe & Ep & Rp). rewrite Ep. cbn [bind].
    edestruct (for_up_inv (fun n '((t, root) : list (option N) * N) => length t = NR /\ ridx root (rho n) /\
      forall i, (i < NR)%nat -> exists x, nth i t None = Some x /\
        rv x (if (i <? n)%nat then hor (rho i) (a i) (pl (firstn (S j - b) (skipn b poly))) else hor (rho i) (a i) (pl (firstn (j - b) (skipn b poly)))))) as (st & E & HI).
    4: { rewrite E. destruct st as [t root]. destruct HI as (Lt & Rr & Ht). cbn [bind]. exists t. split; [reflexivity|]. split; [exact Lt|].
         intros i Hi. destruct (Ht i Hi) as (x & Ex & Rx). exists x. split; [exact Ex|]. replace (i <? NR)%nat with true in Rx by lia. exact Rx. }
    + lia.
    + intros n [t root] Hn (Lt & Rr & Ht). cbv beta. destruct (Ht n ltac:(lia)) as (x & Ex & Rx). rewrite (rdu_nth _ _ _ Ex). cbn [bind].
      rewrite Nat.ltb_irrefl in Rx. destruct (rv_fma_ivv G OK _ _ _ _ _ _ Rr Rx Rc) as (z & Ez & Rz). rewrite Ez. cbn [bind]. unfold wru. rewrite wr_Ok by lia. cbn [bind].
      destruct (ridx_mul_a G OK root pe _ _ Rr Rp) as (r & _ & Er & RR). rewrite Er. cbn [bind]. eexists. split; [reflexivity|].
      split; [rewrite length_upd; exact Lt|]. split; [rewrite rho_S; exact RR|]. intros i Hi. rewrite nth_upd. destruct (Nat.eqb_spec n i) as [<-|Hne].
      * replace (n <? length t)%nat with true by lia. cbn [andb]. exists z. split; [reflexivity|]. replace (n <? S n)%nat with true by lia.
        replace (S j - b)%nat with (S (j - b)) by lia. rewrite (firstn_snoc (skipn b poly) (j - b) 0) by (rewrite skipn_length; lia). unfold Proof_rs1.pl in *. rewrite map_app, hor_app. cbn [map hor].
        rewrite nth_skipn'. replace (b + (j - b))%nat with j by lia. replace (I (nth j poly 0)) with (nth j (map I poly) f0) by apply (nth_pl G OK). exact Rz.
      * cbn [andb]. destruct (Ht i Hi) as (y & Ey & Ry). exists y. split; [exact Ey|]. replace (i <? S n)%nat with (i <? n)%nat by lia. exact Ry.
    + split; [exact Ls|]. split; [exact R0|]. intros i Hi. cbn [Nat.ltb Nat.leb]. apply Hs. exact Hi.
  - split; [exact LS|]. intros i Hi. rewrite Nat.sub_diag. cbn [firstn Proof_rs1.pl map hor]. apply HS. exact Hi.
Qed.

Lemma syndromes_ok data parity syn len : smallq data -> smallq parity -> length parity = NR -> (1 <= len <= rs_K G NR)%nat -> (len <= length data)%nat -> length syn = NR ->
  exists syn' nonzero, rs_syndromes G NR FCR data parity syn len = Ok (syn', nonzero) /\ length syn' = NR /\
    (forall i, (i < NR)%nat -> exists x, nth i syn' None = Some x /\ rv x (hor (rho i) f0 (pl (firstn len data ++ parity)))) /\
    ((nonzero = 0%nat <-> forall i, (i < NR)%nat -> hor (rho i) f0 (pl (firstn len data ++ parity)) = f0)).
Proof.
  intros SD SP LP Hlen Hdata LS. unfold rs_syndromes. replace ((0 <? len) && (len <=? rs_K G NR))%nat%bool with true by lia. cbn [assert_ bind].
  destruct (rd_rv G OK data 0 SD ltac:(lia)) as (c & Ec & Rc). rewrite Ec. cbn [bind].
  destruct (fill_u (fun i x => rv x (nth 0 (pl data) f0)) 0 NR (fun i syn => wru syn i c) syn) as (s0 & E0 & L0 & V0 & _).
  { lia. } { lia. } { intros i u Hi. exists c. auto. }
  rewrite E0. cbn [bind].
  destruct (update_ok data 1 len s0 (fun _ => nth 0 (pl data) f0)) as (s1 & E1 & L1 & V1); [exact SD|lia|lia|lia| |].
  { intros i Hi. apply V0. lia. }
  rewrite E1. cbn [bind].
  destruct (update_ok parity 0 NR s1 (fun i => hor (rho i) (nth 0 (pl data) f0) (pl (firstn (len - 1) (skipn 1 data))))) as (s2 & E2 & L2 & V2); [exact SP|lia|lia|lia|exact V1|].
  rewrite E2. cbn [bind].
  assert (V : forall i, (i < NR)%nat -> exists x, nth i s2 None = Some x /\ rv x (hor (rho i) f0 (pl (firstn len data ++ parity)))).
  { intros i Hi. destruct (V2 i Hi) as (x & Ex & Rx). exists x. split; [exact Ex|]. rewrite Nat.sub_0_r, skipn_O, (firstn_all2 parity) in Rx by lia.
    unfold Proof_rs1.pl in *. rewrite map_app, hor_app. destruct data as [|d data]; [exfalso; cbn [length] in Hdata; clear -Hlen Hdata; lia|]. replace len with (S (len - 1)) by lia. cbn [firstn map hor].
    cbn [skipn map nth] in Rx. assert (ED : forall y : car F, fadd (fmul (rho i) f0) y = y) by (intros y; ring). rewrite ED. exact Rx. }
  edestruct (for_up_inv (fun n (c : nat) => (c = 0%nat <-> forall i, (i < n)%nat -> hor (rho i) f0 (pl (firstn len data ++ parity)) = f0))) as (nonzero & E & HI).
  4: { rewrite E. cbn [bind]. exists s2, nonzero. split; [reflexivity|]. split; [exact L2|]. split; [exact V|exact HI]. }
  - lia.
  - intros n k Hn IH. cbv beta. destruct (V n ltac:(lia)) as (x & Ex & Rx). rewrite (rdu_nth _ _ _ Ex). cbn [bind]. eexists. split; [reflexivity|].
    destruct (rv_nz G OK _ _ Rx) as [(Nx & Zx)|(Nx & Zx)]; rewrite Nx.
    + rewrite IH. split; intros H i Hi; [destruct (Nat.eq_dec i n) as [->|]; [exact Zx|apply H; lia]|apply H; lia].
    + split; [discriminate|]. intros H. exfalso. apply Zx. apply H. lia.
  - split; [intros; lia|reflexivity].
Qed.
End S.
