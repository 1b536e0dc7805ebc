(** LDPC decoder: the second pass of a layer, [update] and the whole decoder. *)
From Coq Require Import ZifyBool Permutation.
From Verif Require Import Cpp Model_simd Model_ldpc Spec_ldpc Lib_list Proof_bits Proof_simd Proof_ldpc1 Proof_ldpc2 Proof_ldpc3 Proof_ldpc4 Proof_ldpc5 Proof_ldpc6 Proof_ldpc7 Proof_ldpc8.
Open Scope nat_scope.
Ltac Zify.zify_post_hook ::= idtac.

Section Update.
Variable T : table.
Variable D : nat.
Hypothesis DOK : decoder_ok T D.
Variable BETA : Z.
Hypothesis HB : (0 <= BETA <= 255)%Z.
Notation OK := (ok_table T D DOK).
Notation M := (t_M T).
Notation q := (t_q T).
Notation rows := (rows_of T).
Notation cl i := (cls M q i 0 rows).
Notation W := (d_W T D).
Variable C : ldpc_const.
Hypothesis HC : counts T (lc_cnc C).
Hypothesis HS : segs T D (fun _ _ => True) (lc_loc C).
Notation bb i j := (bbase T D i j).

Lemma cnt_le i : i < q -> length (cl i) <= 30.
Proof. intros H. pose proof (len_le T OK i H). pose proof (ok_max32 T D DOK). unfold t_cnc in *. lia. Qed.

(** word and shift of link [k] *)
Definition link_at (i j k : nat) : nat * nat := nth (base T D i j + k) (lc_loc C) (0, 0).
(** link [k] writes *)
Definition enabled (w : N) (i k : nat) : bool := (length (cl i) <=? k) || negb (N.testbit w (N.of_nat k)).

Section Pass2.
Variables bnl0 msg0 pty0 : list (list Z).
Variables i j : nat.
Hypothesis Hi : i < q.
Hypothesis Hj : j < W.
Variable w : N.
Notation sent := (sent T D C BETA bnl0 msg0 pty0 i j).
Notation result := (result T D C BETA bnl0 msg0 pty0 i j).

Definition bnl_after (k : nat) (bnl : list (list Z)) : Prop :=
  (forall k' n, k' < length (cl i) + 2 -> n < D -> lane bnl (bb i j + k') n =
     if (k' <? k) && enabled w i k' then sent n k' else lane bnl0 (bb i j + k') n) /\
  (forall y n, (forall k', k' < length (cl i) + 2 -> y <> bb i j + k') -> lane bnl y n = lane bnl0 y n).
Definition msg_after (k : nat) (msg : list (list Z)) : Prop :=
  forall x, (forall k', k' < k -> k' < length (cl i) -> enabled w i k' = true -> fst (link_at i j k') = x ->
      (forall k'', k' < k'' -> k'' < k -> k'' < length (cl i) -> enabled w i k'' = true -> fst (link_at i j k'') <> x) ->
      forall n, n < D -> lane msg x ((n + snd (link_at i j k')) mod D) = result n k') /\
    ((forall k', k' < k -> k' < length (cl i) -> enabled w i k' = true -> fst (link_at i j k') <> x) ->
      forall m, lane msg x m = lane msg0 x m).
Definition pty_after (k : nat) (pty : list (list Z)) : Prop :=
  (k <= length (cl i) -> pty = pty0) /\
  (length (cl i) < k -> 1 < W * q \/ k = length (cl i) + 1 ->
     forall n, n < D -> nth (d_pty_at T D i j n) (pty_view T D pty) 0%Z = result n (length (cl i))) /\
  (length (cl i) + 1 < k -> forall n, n < D -> d_pty_at T D i j n <> 0 ->
     nth (d_pty_at T D i j n - 1) (pty_view T D pty) 0%Z = result n (length (cl i) + 1)) /\
  (forall p, p < t_R T -> (forall n, n < D -> p <> d_pty_at T D i j n /\ S p <> d_pty_at T D i j n) ->
     nth p (pty_view T D pty) 0%Z = nth p (pty_view T D pty0) 0%Z).

Lemma pass2_ok min0 min1 signs inps mags wd :
  vecs D (d_BNL T D) bnl0 -> vecs D (d_MSG T D) msg0 -> vecs D (d_PTY T D) pty0 ->
  nth_error wd (W * i + j) = Some w ->
  pass1_post T D C BETA bnl0 msg0 pty0 i j min0 min1 signs inps mags ->
  exists bnl msg pty,
    ldpc_pass2 T D C wd min0 min1 signs inps mags (length (cl i)) (bb i j) (base T D i j) i j (bnl0, msg0, pty0) = Ok (bnl, msg, pty) /\
    vecs D (d_BNL T D) bnl /\ vecs D (d_MSG T D) msg /\ vecs D (d_PTY T D) pty /\
    bnl_after (length (cl i) + 2) bnl /\ msg_after (length (cl i) + 2) msg /\ pty_after (length (cl i) + 2) pty.
Proof.
  intros Vb Vm Vp Hw (V0 & V1 & Vs & Hmin & Hlink). unfold ldpc_pass2.
  pose proof (bbase_BNL T D DOK i j Hi Hj) as HBL. pose proof (cnt_le i Hi) as Hcnt.
  pose proof (D_pos T D DOK) as HD.
  edestruct (for_up_inv (fun k (s : list (list Z) * list (list Z) * list (list Z)) => let '(bnl, msg, pty) := s in
     vecs D (d_BNL T D) bnl /\ vecs D (d_MSG T D) msg /\ vecs D (d_PTY T D) pty /\
     bnl_after k bnl /\ msg_after k msg /\ pty_after k pty)) as ([[bnl msg] pty] & E & H).
  4: { exists bnl, msg, pty. split; [exact E|exact H]. }
  - lia.
  - cbv beta. intros k [[bnl msg] pty] Hk (Vbnl & Vmsg & Vpty & Hb & Hm & Hp).
    destruct (Hlink k) as (inp & mag & Ei & Em & Vi & Vg & Hl); [lia|].
    rewrite (rdu_nth _ _ _ Em), (rdu_nth _ _ _ Ei). cbn [bind].
    pose proof (proj1 Vbnl) as Lbnl. rewrite (rd_nth _ _ []) by lia. cbn [bind].
    pose proof (proj2 Vbnl (bb i j + k) ltac:(lia)) as Vbk.
    pose proof (vec_out D min0 min1 signs inp mag _ V0 V1 Vs Vi Vg Vbk) as Vo.
    assert (forall n, n < D -> nth n (ldpc_out D min0 min1 signs inp mag (nth (bb i j + k) bnl [])) 0%Z = sent n k) as Ho.
    { intros n Hn. destruct (Hmin n Hn) as (M1 & M2). destruct (Hl n Hn) as (L1 & L2).
      rewrite (lane_out D BETA (arrivals T D C bnl0 msg0 pty0 i j n) k); auto; try lia.
      - unfold Proof_ldpc8.sent. f_equal. change (nth n (nth (bb i j + k) bnl []) 0%Z) with (lane bnl (bb i j + k) n).
        rewrite (proj1 Hb) by lia. replace (k <? k) with false by lia. reflexivity.
      - unfold arrivals. rewrite map_length, seq_length. lia.
      - rewrite arrivals_nth by lia. exact L1.
      - rewrite arrivals_nth by lia. exact L2. }
    set (out := ldpc_out D min0 min1 signs inp mag (nth (bb i j + k) bnl [])) in *. clearbody out.
    pose proof (vec_vqadd D _ _ Vi Vo) as Vt.
    assert (forall n, n < D -> nth n (vqadd 8 inp out) 0%Z = result n k) as Ht.
    { intros n Hn. rewrite (lane_qadd D) by assumption. rewrite Ho by exact Hn. rewrite (proj1 (Hl n Hn)). reflexivity. }
    set (tmp := vqadd 8 inp out) in *. clearbody tmp.
    assert (enabled w i k = true -> bnl_after (S k) (upd bnl (bb i j + k) out)) as Hb'.
    { intros En. destruct Hb as (B1 & B2). split.
      - intros k' n Hk' Hn. unfold lane. destruct (Nat.eq_dec k' k) as [->|Hne].
        + rewrite nth_upd_eq by lia. rewrite En. replace (k <? S k) with true by lia. apply Ho. exact Hn.
        + rewrite nth_upd_neq by lia. fold (lane bnl (bb i j + k') n). rewrite B1 by assumption.
          replace (k' <? S k) with (k' <? k) by lia. reflexivity.
      - intros y n Hy. unfold lane. rewrite nth_upd_neq by (intros E; apply (Hy k ltac:(lia)); lia). apply B2. exact Hy. }
    assert (length (cl i) <= k -> msg_after (S k) msg) as Hmk.
    { intros Hge x. destruct (Hm x) as (M1 & M2). split.
      - intros k' Hk' Hc En Ex Hlast. apply M1; auto; try lia; try (intros k'' G1 G2 G3 G4; apply Hlast; auto; lia).
      - intros Hno. apply M2. intros k' G1 G2. apply Hno; lia. }
    destruct (Nat.ltb_spec k (length (cl i))) as [Hlt|Hge].
    + unfold rd. rewrite Hw. cbn [bind]. replace (k <? 32) with true by lia. cbn [require bind].
      assert (pty = pty0) as -> by (apply (proj1 Hp); lia).
      assert (pty_after (S k) pty0) as Hpk.
      { split; [reflexivity|]. split; [intros; lia|]. split; [intros; lia|]. reflexivity. }
      destruct (N.testbit w (N.of_nat k)) eqn:Et.
      * eexists. split; [reflexivity|]. cbv beta iota. split; [exact Vbnl|]. split; [exact Vmsg|]. split; [exact Vpty|].
        assert (enabled w i k = false) as En.
        { unfold enabled. rewrite Et. replace (length (cl i) <=? k) with false by lia. reflexivity. }
        split; [|split; [|exact Hpk]].
        -- destruct Hb as (B1 & B2). split; [|exact B2]. intros k' n Hk' Hn. rewrite B1 by assumption.
           destruct (Nat.eq_dec k' k) as [->|Hne]; [rewrite En, !andb_false_r; reflexivity|].
           replace (k' <? S k) with (k' <? k) by lia. reflexivity.
        -- intros x. destruct (Hm x) as (M1 & M2). split.
           ++ intros k' Hk' Hc Enk Ex Hlast. destruct (Nat.eq_dec k' k) as [->|Hne]; [congruence|].
              apply M1; auto; try lia; try (intros k'' G1 G2 G3 G4; apply Hlast; auto; lia).
           ++ intros Hno. apply M2. intros k' G1 G2. apply Hno; lia.
      * assert (enabled w i k = true) as En by (unfold enabled; rewrite Et; apply orb_true_r).
        rewrite wr_Ok by lia. cbn [bind].
        destruct (loc_bound T D DOK _ i j k HS Hi Hj Hlt) as (B0 & B1 & B2).
        destruct (nth_error (lc_loc C) (base T D i j + k)) as [l|] eqn:El.
        2: { apply nth_error_None in El. lia. }
        assert (link_at i j k = l) as EL by (unfold link_at; apply nth_error_nth; exact El).
        fold (link_at i j k) in B1, B2. rewrite EL in B1, B2. cbn [bind].
        destruct (rotate_vec D tmp (Z.of_nat (snd l)) Vt HD ltac:(lia)) as (v & Er & Vv & Hv).
        rewrite Er. cbn [bind]. pose proof (proj1 Vmsg) as Lmsg. rewrite wr_Ok by lia. cbn [bind].
        eexists. split; [reflexivity|]. cbv beta iota. split; [apply vecs_upd; assumption|].
        split; [apply vecs_upd; assumption|]. split; [exact Vpty|]. split; [apply Hb'; exact En|]. split; [|exact Hpk].
        intros x. destruct (Hm x) as (M1 & M2). split.
        -- intros k' Hk' Hc Enk Ex Hlast n Hn. destruct (Nat.eq_dec k' k) as [->|Hne].
           ++ rewrite EL in *. subst x. unfold lane. rewrite nth_upd_eq by lia.
              assert ((n + snd l) mod D < D) by (apply Nat.mod_upper_bound; lia).
              rewrite Hv by assumption. rewrite rot_pos by assumption. apply Ht. exact Hn.
           ++ assert (fst l <> x) as Hnx by (rewrite <- EL; apply Hlast; auto; lia).
              unfold lane. rewrite nth_upd_neq by exact Hnx. apply M1; auto; try lia; try (intros k'' G1 G2 G3 G4; apply Hlast; auto; lia).
        -- intros Hno m. assert (fst l <> x) as Hnx by (rewrite <- EL; apply Hno; auto; lia).
           unfold lane. rewrite nth_upd_neq by exact Hnx. apply M2. intros k' G1 G2. apply Hno; lia.
    + assert (enabled w i k = true) as En by (unfold enabled; replace (length (cl i) <=? k) with true by lia; reflexivity).
      destruct (Nat.eqb_spec k (length (cl i))) as [Ek|Hne].
      * rewrite wr_Ok by lia. cbn [bind].
        assert (pty = pty0) as -> by (apply (proj1 Hp); lia).
        destruct (own_write T D DOK pty0 i j tmp Vpty Vt Hi Hj) as (pty' & Ew & Vp' & O1 & O2). rewrite Ew. cbn [bind].
        eexists. split; [reflexivity|]. cbv beta iota. split; [apply vecs_upd; assumption|].
        split; [exact Vmsg|]. split; [exact Vp'|]. split; [apply Hb'; exact En|]. split; [apply Hmk; lia|].
        split; [intros; lia|]. split; [|split; [intros; lia|]].
        -- intros _ _ n Hn. rewrite O1 by exact Hn. rewrite Ht by exact Hn. rewrite Ek. reflexivity.
        -- intros p Hpp Hall. apply O2; [exact Hpp|]. intros n Hn. apply Hall. exact Hn.
      * assert (k = length (cl i) + 1) as -> by lia.
        rewrite wr_Ok by lia. cbn [bind].
        destruct (prev_write T D DOK pty i j tmp Vpty Vt Hi Hj) as (pty' & Ew & Vp' & O1 & O2).
        assert (forall (b : list (list Z)),
          (if negb (i =? 0) then pty <- wr pty (W * (i - 1) + j) tmp ;; Ok (b, msg, pty)
           else if negb (j =? 0) then pty <- wr pty (W * (q - 1) + j - 1) tmp ;; Ok (b, msg, pty)
           else v <- rdZ pty (Z.of_nat (d_PTY T D) - 1) ;; x <- rdZ v (Z.of_nat D - 1) ;; tmp <- wr tmp 0 x ;;
                tmp <- rotate D tmp (-1) ;; pty <- wrZ pty (Z.of_nat (d_PTY T D) - 1) tmp ;; Ok (b, msg, pty)) =
          (pty <- write_prev T D pty i j tmp ;; Ok (b, msg, pty))) as Ewp.
        { intros b. unfold write_prev. destruct (negb (i =? 0)); [reflexivity|]. destruct (negb (j =? 0)); [reflexivity|].
          destruct (rdZ pty _); cbn [bind]; try reflexivity. destruct (rdZ _ _); cbn [bind]; try reflexivity.
          destruct (wr tmp _ _); cbn [bind]; try reflexivity. destruct (rotate _ _ _); cbn [bind]; reflexivity. }
        rewrite Ewp, Ew. cbn [bind].
        eexists. split; [reflexivity|]. cbv beta iota. split; [apply vecs_upd; assumption|].
        split; [exact Vmsg|]. split; [exact Vp'|]. split; [apply Hb'; exact En|]. split; [apply Hmk; lia|].
        destruct Hp as (_ & P1 & _ & P3). split; [intros; lia|]. split; [|split].
        -- intros _ [HWq|]; [|lia]. intros n Hn. rewrite O2.
           ++ apply P1; [lia|left; exact HWq|exact Hn].
           ++ apply (pty_view_at T D DOK pty i j n Hi Hj Hn).
           ++ intros n' Hn' Eq. unfold d_pty_at in Eq. clear - HWq Eq.
              assert (S (W * q * n) = W * q * n') as E1 by nia. revert E1 HWq. generalize (W * q). intros a E1 HWq.
              assert (n' <= n \/ n + 1 <= n') as [|] by lia; nia.
        -- intros _ n Hn Hz. rewrite O1 by assumption. rewrite Ht by exact Hn. reflexivity.
        -- intros p Hpp Hall. rewrite O2; [apply P3; assumption|exact Hpp|]. intros n Hn. apply Hall. exact Hn.
  - cbv beta iota. split; [exact Vb|]. split; [exact Vm|]. split; [exact Vp|]. split; [|split].
    + split; [|reflexivity]. intros k' n _ _. reflexivity.
    + intros x. split; [intros; lia|reflexivity].
    + split; [reflexivity|]. split; [intros; lia|]. split; [intros; lia|]. reflexivity.
Qed.
End Pass2.

(** the write disable masks *)
Lemma ror_ok first last cur : first <= last -> last < 30 -> exists x, ldpc_ror first last cur = Ok x.
Proof.
  intros H1 H2. unfold ldpc_ror. replace (last - first + 1 <? 31) with true by lia. cbn [require bind].
  assert (N.shiftl (N.shiftl 1 (N.of_nat (last - first + 1)) - 1) (N.of_nat first) < 2 ^ 31)%N as H.
  { rewrite !N.shiftl_mul_pow2, N.mul_1_l.
    apply N.lt_le_trans with (2 ^ (N.of_nat (last - first + 1)) * 2 ^ N.of_nat first)%N.
    - apply N.mul_lt_mono_pos_r; [apply N.neq_0_lt_0, N.pow_nonzero; discriminate|].
      assert (2 ^ N.of_nat (last - first + 1) <> 0)%N by (apply N.pow_nonzero; discriminate). lia.
    - rewrite <- N.pow_add_r. apply N.pow_le_mono_r; [discriminate|]. lia. }
  apply N.ltb_lt in H. rewrite H. cbn [require bind]. eexists. reflexivity.
Qed.
Lemma rotate_wd_ok wd i j : length wd = d_PTY T D -> i < q -> j < W ->
  exists wd', ldpc_rotate_wd T D C (length (cl i)) (base T D i j) i j wd = Ok wd' /\ length wd' = d_PTY T D /\
    forall y, nth y wd 0%N = 0%N -> nth y wd' 0%N = 0%N.
Proof.
  intros L Hi Hj. pose proof (cnt_le i Hi) as Hcnt. pose proof (PTY_eq T D DOK) as EP.
  assert (W * i + j < d_PTY T D) as Hc by (rewrite EP; nia). unfold ldpc_rotate_wd.
  rewrite (rd_nth _ _ 0%N) by lia. cbn [bind]. destruct (N.eqb_spec (nth (W * i + j) wd 0%N) 0) as [|Hnz]; [eexists; split; [reflexivity|]; split; [exact L|auto]|].
  destruct (Nat.le_gt_cases (length (cl i)) 1) as [Hs|Hs].
  { unfold for_up. replace (length (cl i) - 1) with 0 by lia. cbn [loop bind]. eexists. split; [reflexivity|]. split; [exact L|auto]. }
  edestruct (for_up_inv (fun c (s : nat * list N) => let '(first, wd1) := s in first < c /\ length wd1 = d_PTY T D /\
     forall y, y <> W * i + j -> nth y wd1 0%N = nth y wd 0%N))
    as ([first wd'] & E & _ & L' & Hy).
  4: { rewrite E. cbn [bind]. eexists. split; [reflexivity|]. split; [exact L'|]. intros y H0.
       rewrite Hy; [exact H0|]. intros ->. contradiction. }
  - lia.
  - cbv beta. intros c [first wd'] Hcc (Hf & L' & Hy).
    destruct (loc_bound T D DOK _ i j first HS Hi Hj ltac:(lia)) as (B0 & _).
    destruct (loc_bound T D DOK _ i j c HS Hi Hj ltac:(lia)) as (B1 & _).
    rewrite !(rd_nth _ _ (0, 0)) by assumption. cbn [bind].
    destruct (_ || _); [|eexists; split; [reflexivity|]; cbv beta iota; split; [lia|split; [lia|exact Hy]]].
    set (last := if c =? length (cl i) - 1 then c else c - 1).
    assert (first <= last /\ last < 30) as (Hl1 & Hl2) by (unfold last; destruct (Nat.eqb_spec c (length (cl i) - 1)); lia).
    destruct (negb (last =? first)).
    + rewrite (rd_nth _ _ 0%N) by lia. cbn [bind]. destruct (ror_ok first last (nth (W * i + j) wd' 0%N) Hl1 Hl2) as (x & ->).
      cbn [bind]. rewrite wr_Ok by lia. cbn [bind]. eexists. split; [reflexivity|]. cbv beta iota. rewrite length_upd. split; [lia|]. split; [lia|].
      intros y Hne. rewrite nth_upd_neq by lia. apply Hy. exact Hne.
    + cbn [bind]. eexists. split; [reflexivity|]. cbv beta iota. split; [lia|]. split; [lia|exact Hy].
  - cbv beta iota. split; [lia|]. split; [exact L|reflexivity].
Qed.

(** an object: arrays of the right sizes *)
Definition shaped (s : ldpc_state) : Prop :=
  vecs D (d_BNL T D) (ls_bnl s) /\ vecs D (d_MSG T D) (ls_msg s) /\ vecs D (d_PTY T D) (ls_pty s) /\
  length (ls_wd s) = d_PTY T D.

Theorem layer_ok i j s : shaped s -> i < q -> j < W ->
  exists s', ldpc_layer T D BETA C (length (cl i)) i j (bb i j, base T D i j, s) = Ok (bb i (S j), base T D i (S j), s') /\
    shaped s' /\ (forall y, nth y (ls_wd s) 0%N = 0%N -> nth y (ls_wd s') 0%N = 0%N) /\
    let w := nth (W * i + j) (ls_wd s) 0%N in
    bnl_after (ls_bnl s) (ls_msg s) (ls_pty s) i j w (length (cl i) + 2) (ls_bnl s') /\
    msg_after (ls_bnl s) (ls_msg s) (ls_pty s) i j w (length (cl i) + 2) (ls_msg s') /\
    pty_after (ls_bnl s) (ls_msg s) (ls_pty s) i j (length (cl i) + 2) (ls_pty s').
Proof.
  intros (Vb & Vm & Vp & Lw) Hi Hj. unfold ldpc_layer.
  destruct (pass1_ok T D DOK C HS BETA HB _ _ _ i j Vb Vm Vp Hi Hj) as (min0 & min1 & signs & inps & mags & E1 & P1).
  rewrite E1. cbn [bind].
  assert (nth_error (ls_wd s) (W * i + j) = Some (nth (W * i + j) (ls_wd s) 0%N)) as Hw.
  { apply nth_error_nth'. rewrite Lw, (PTY_eq T D DOK). nia. }
  destruct (pass2_ok _ _ _ i j Hi Hj _ min0 min1 signs inps mags (ls_wd s) Vb Vm Vp Hw P1)
    as (bnl & msg & pty & E2 & Vb' & Vm' & Vp' & H1 & H2 & H3).
  rewrite E2. cbn [bind]. destruct (rotate_wd_ok (ls_wd s) i j Lw Hi Hj) as (wd' & E3 & Lw' & Hz). rewrite E3. cbn [bind].
  rewrite bbase_next, base_next. eexists. split; [reflexivity|]. split; [split; [exact Vb'|split; [exact Vm'|split; [exact Vp'|exact Lw']]]|].
  split; [exact Hz|]. cbv zeta. split; [exact H1|]. split; [exact H2|exact H3].
Qed.

Theorem update_ok s : shaped s -> exists s', ldpc_update T D BETA C s = Ok s' /\ shaped s' /\
  forall y, nth y (ls_wd s) 0%N = 0%N -> nth y (ls_wd s') 0%N = 0%N.
Proof.
  intros Hs. destruct HC as (Lc & Hc). unfold ldpc_update. pose proof (W_pos T D DOK) as HW.
  edestruct (for_up_inv (fun i (x : nat * nat * ldpc_state) => let '(bl, lo, s1) := x in
     bl = bb i 0 /\ lo = base T D i 0 /\ shaped s1 /\ forall y, nth y (ls_wd s) 0%N = 0%N -> nth y (ls_wd s1) 0%N = 0%N))
    as ([[bl lo] s'] & E & _ & _ & Hs' & Hz').
  4: { rewrite E. cbn [bind]. eexists. split; [reflexivity|]. split; [exact Hs'|exact Hz']. }
  - lia.
  - cbv beta. intros i [[bl lo] s1] Hi (-> & -> & Hs1 & Hz1). rewrite (rd_nth _ _ 0) by lia. cbn [bind]. rewrite Hc by lia.
    edestruct (for_up_inv (fun j (x : nat * nat * ldpc_state) => let '(bl, lo, s2) := x in
      bl = bb i j /\ lo = base T D i j /\ shaped s2 /\ forall y, nth y (ls_wd s) 0%N = 0%N -> nth y (ls_wd s2) 0%N = 0%N))
      as ([[bl lo] s2] & E & -> & -> & Hs2 & Hz2).
    4: { rewrite E. eexists. split; [reflexivity|]. cbv beta iota. rewrite bbase_wrap, base_wrap. auto. }
    + lia.
    + cbv beta. intros j [[bl lo] s2] Hj (-> & -> & Hs2 & Hz2).
      destruct (layer_ok i j s2 Hs2 ltac:(lia) ltac:(lia)) as (s3 & E & Hs3 & Hz3 & _). rewrite E. eexists. split; [reflexivity|].
      cbv beta iota. split; [reflexivity|]. split; [reflexivity|]. split; [exact Hs3|]. intros y Hy. apply Hz3, Hz2, Hy.
    + cbv beta iota. auto.
  - cbv beta iota. unfold bbase, base, csum. cbn [nsum]. split; [lia|]. split; [lia|]. split; [exact Hs|auto].
Qed.
End Update.
