(** Proofs about Model_bch: the two ways to access a buffer; words divisible by a generator vanish where the generator does. *)
From Coq Require Import ZifyBool ZifyNat ZifyN Field.
From Verif Require Import Cpp Lib_list Proof_bits Model_bits Spec_bits Model_gf Model_rs Model_bch Spec_gf Spec_rs Spec_bch Lib_gf2lin Lib_gf2poly Lib_gf Lib_field Lib_poly Lib_rs Proof_gf Proof_gffield Proof_crs1 Proof_crs2 Proof_rs1 Proof_rs2 Proof_rs3 Proof_rs4 Proof_rs5 Proof_rs6 Proof_bch1 Proof_bch2 Proof_bch3.
Local Open Scope N_scope.

Lemma word_binary w : is_word w <-> binary w.
Proof. unfold is_word, binary. split; apply Forall_impl; intros x Hx; lia. Qed.

Section S.
Variable G : gf.
Hypothesis OK : gf_ok G.
Notation Q := (2 ^ gf_M G).
Notation F := (gf_fld G OK).
Notation I := (inn G OK : N -> car F).
Notation pl := (pl G OK).
Add Field FFb4 : (fth (gf_fld G OK)).

Lemma c2 (c : car F) : fadd c c = f0.
Proof. rewrite <- (inn_out G OK c). rewrite <- I_xor by apply out_lt. rewrite N.lxor_nilpotent. reflexivity. Qed.

Lemma mul0 (c : car F) : fmul c f0 = f0. Proof. ring. Qed.
Lemma mul0l (c : car F) : fmul f0 c = f0. Proof. ring. Qed.
Lemma mul1l (c : car F) : fmul f1 c = c. Proof. ring. Qed.
Lemma add0l (c : car F) : fadd f0 c = c. Proof. ring. Qed.
Lemma add0r (c : car F) : fadd c f0 = c. Proof. ring. Qed.
(** the value of a binary polynomial *)
Fixpoint bevp (x : car F) (p : positive) : car F :=
  match p with xH => f1 | xO q => fmul x (bevp x q) | xI q => fadd (fmul x (bevp x q)) f1 end.
Definition bev (x : car F) (v : N) : car F := match v with 0 => f0 | Npos p => bevp x p end.
Lemma bev_dbl x v : bev x (2 * v) = fmul x (bev x v).
Proof. destruct v; [|reflexivity]. change (f0 = fmul x f0). symmetry. apply mul0. Qed.
Lemma bev_dbl1 x v : bev x (2 * v + 1) = fadd (fmul x (bev x v)) f1.
Proof. destruct v; [|reflexivity]. change (f1 = fadd (fmul x f0) f1). rewrite mul0. symmetry. apply add0l. Qed.
Lemma add_cancel (a b : car F) : fadd (fadd a f1) (fadd b f1) = fadd a b.
Proof. assert (E : forall c : car F, fadd c c = f0 -> fadd (fadd a c) (fadd b c) = fadd a b) by (intros c Hc; transitivity (fadd (fadd a b) (fadd c c)); [ring|rewrite Hc; ring]). apply E, c2. Qed.
Lemma bev_lxor x a : forall b, bev x (N.lxor a b) = fadd (bev x a) (bev x b).
Proof.
  induction a as [|a IH|a IH] using N.binary_ind.
  - intros b. rewrite N.lxor_0_l. symmetry. apply add0l.
  - intros b. rewrite N.double_spec. destruct (N.Even_or_Odd b) as [(c & ->)|(c & ->)].
    + replace (N.lxor (2 * a) (2 * c)) with (2 * N.lxor a c) by (rewrite <- !N.double_spec; destruct a, c; try reflexivity; cbn; destruct (Pos.lxor _ _); reflexivity).
      rewrite !bev_dbl, IH. ring.
    + replace (N.lxor (2 * a) (2 * c + 1)) with (2 * N.lxor a c + 1) by (destruct a, c; try reflexivity; cbn; destruct (Pos.lxor _ _); reflexivity).
      rewrite bev_dbl, !bev_dbl1, IH. ring.
  - intros b. rewrite N.succ_double_spec. destruct (N.Even_or_Odd b) as [(c & ->)|(c & ->)].
    + replace (N.lxor (2 * a + 1) (2 * c)) with (2 * N.lxor a c + 1) by (destruct a, c; try reflexivity; cbn; destruct (Pos.lxor _ _); reflexivity).
      rewrite bev_dbl, !bev_dbl1, IH. ring.
    + replace (N.lxor (2 * a + 1) (2 * c + 1)) with (2 * N.lxor a c) by (destruct a, c; try reflexivity; cbn; destruct (Pos.lxor _ _); reflexivity).
      rewrite bev_dbl, !bev_dbl1, IH, add_cancel. ring.
Qed.
Lemma bev_clmul x a b : bev x (clmul a b) = fmul (bev x a) (bev x b).
Proof.
  destruct a as [|p]; cbn [clmul]; [symmetry; apply mul0l|]. induction p as [p IH|p IH|]; cbn [clmul_pos].
  - rewrite bev_lxor, bev_dbl, IH. change (N.pos p~1) with (2 * N.pos p + 1). rewrite bev_dbl1. ring.
  - rewrite bev_dbl, IH. change (N.pos p~0) with (2 * N.pos p). rewrite bev_dbl. ring.
  - symmetry. apply mul1l.
Qed.
Lemma bev_word x w : binary w -> hor x f0 (pl w) = bev x (word_poly w).
Proof.
  induction w as [|b w IH] using rev_ind; [reflexivity|]. intros H. apply Forall_app in H. destruct H as (H1 & H2). inversion H2 as [|? ? Hb _]; subst.
  unfold Proof_rs1.pl. rewrite map_app, hor_app. cbn [map hor]. fold (pl w). change (map (inn G OK) w) with (pl w). rewrite IH by exact H1.
  rewrite word_poly_snoc. assert (b = 0 \/ b = 1) as [-> | ->] by lia.
  - rewrite N.add_0_r, bev_dbl, I_0. ring.
  - rewrite bev_dbl1, I_1. reflexivity.
Qed.
Variables NR FCR : nat.
Lemma divisible_codeword wg w : is_word wg -> is_word w -> rs_codeword (gf_M G) (gf_POLY G) NR FCR wg -> poly_divides (word_poly wg) (word_poly w) ->
  rs_codeword (gf_M G) (gf_POLY G) NR FCR w.
Proof.
  intros Wg W CG (q & E). apply word_binary in Wg, W. apply (codeword_syn G OK) in CG. destruct CG as (_ & CG). apply (codeword_syn G OK). pose proof (Q1' G OK). split; [revert W; apply Forall_impl; intros x Hx; assert (x = 0 \/ x = 1) as [-> | ->] by lia; lia|].
  intros i Hi. specialize (CG i Hi). unfold Proof_rs5.syn in *. rewrite bev_word in CG |- * by assumption. rewrite E, bev_clmul, CG. ring.
Qed.

(** ** access *)
Lemma packed_access : access_ok G (bch_packed G) bytes be_bits.
Proof.
  pose proof (Q1' G OK) as HQ. split.
  - intros buf _. apply Forall_nth. intros i d Hi. rewrite (nth_indep _ d 0), nth_be_bits by exact Hi. destruct (be_bit_of buf i); cbn; lia.
  - intros buf i HB Hi. rewrite length_be_bits in Hi. cbn [bch_packed ba_get]. rewrite get_be_bit_ok by (try exact HB; lia). cbn [bind]. rewrite (mkV_bit 1 (le_n 1) G OK), nth_be_bits. reflexivity.
  - intros buf i m HB Hi Hm. rewrite length_be_bits in Hi. cbn [bch_packed ba_add]. destruct (xor_be_bit_ok buf i HB Hi (nz m)) as (b & E & L & B & H & _).
    exists b. split; [exact E|]. split; [exact B|]. apply (list_ext _ _ 0); [rewrite length_upd, !length_be_bits; lia|].
    intros j Hj. rewrite nth_upd, !nth_be_bits, H, length_be_bits. destruct (Nat.eqb_spec i j) as [<-|Hne].
    + rewrite Nat.eqb_refl. replace (i <? 8 * length buf)%nat with true by lia. cbn [andb]. assert (m = 0 \/ m = 1) as [-> | ->] by lia; destruct (be_bit_of buf i); reflexivity.
    + replace (j =? i)%nat with false by lia. reflexivity.
  - intros e d He. cbn [bch_packed ba_shift]. f_equal. apply wrap_small. pose proof (ok_w G OK) as HM. apply N.lt_le_trans with (2 ^ gf_M G); [lia|]. apply N.pow_le_mono_r; lia.
Qed.
Lemma reference_access : access_ok G (bch_reference G) binary (fun l => l).
Proof.
  pose proof (Q1' G OK) as HQ. split.
  - intros buf H. exact H.
  - intros buf i HB Hi. cbn [bch_reference ba_get]. apply rd_nth. exact Hi.
  - intros buf i m HB Hi Hm. cbn [bch_reference ba_add]. rewrite (rdZ_nth buf _ 0) by lia. cbn [bind]. rewrite Nat2Z.id.
    assert (Hb : nth i buf 0 < 2) by (exact (proj1 (Forall_nth (fun x => x < 2) buf) HB i 0 Hi)).
    assert (EA : v_add_assign G (nth i buf 0) m = Ok (N.lxor (nth i buf 0) m)).
    { assert (nth i buf 0 = 0 \/ nth i buf 0 = 1) as [E|E] by lia; rewrite E; assert (m = 0 \/ m = 1) as [-> | ->] by lia.
      - exact (proj2 (add_bits 1 (le_n 1) G OK false false)). - exact (proj2 (add_bits 1 (le_n 1) G OK false true)). - exact (proj2 (add_bits 1 (le_n 1) G OK true false)). - exact (proj2 (add_bits 1 (le_n 1) G OK true true)). }
    rewrite EA. cbn [bind]. rewrite wrZ_Ok by lia. rewrite Nat2Z.id. eexists. split; [reflexivity|]. split; [|reflexivity].
    apply Forall_nth. intros j d Hj. rewrite (nth_indep _ d 0) by exact Hj. rewrite length_upd in Hj. rewrite nth_upd. destruct (_ && _)%bool; [apply bin_xor; assumption|].
    exact (proj1 (Forall_nth (fun x => x < 2) buf) HB j 0 Hj).
  - intros e d He. cbn [bch_reference ba_shift]. rewrite (mkI G OK) by lia. f_equal. lia.
Qed.
End S.
