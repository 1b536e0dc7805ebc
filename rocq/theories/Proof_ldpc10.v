(** LDPC decoder: loading, iterating and storing. *)
From Coq Require Import ZifyBool Permutation.
From Verif Require Import Cpp Model_simd Model_ldpc Spec_ldpc Lib_list Proof_bits Proof_simd Proof_ldpc1 Proof_ldpc2 Proof_ldpc3 Proof_ldpc4 Proof_ldpc5 Proof_ldpc6 Proof_ldpc7 Proof_ldpc8 Proof_ldpc9.
Open Scope nat_scope.
Ltac Zify.zify_post_hook ::= idtac.

Section Decode.
Variable T : table.
Variable D : nat.
Hypothesis DOK : decoder_ok T D.
Notation OK := (ok_table T D DOK).
Notation M := (t_M T).
Notation q := (t_q T).
Notation rows := (rows_of T).
Notation cl i := (cls M q i 0 rows).
Notation W := (d_W T D).

(** positions visited before [(i, j, n)] *)
Definition before3 (i j n i' j' n' : nat) : Prop := i' < i \/ (i' = i /\ (j' < j \/ (j' = j /\ n' < n))).

Lemma load_ok L src from vec0 : vecs D (W * L) vec0 -> Forall i8 from ->
  (forall i j n, i < L -> j < W -> n < D -> src i j n < length from) ->
  exists v, ldpc_load T D L src from vec0 = Ok v /\ vecs D (W * L) v /\
    forall i j n, i < L -> j < W -> n < D -> lane v (W * i + j) n = nth (src i j n) from 0%Z.
Proof.
  intros V0 F Hsrc. unfold ldpc_load.
  set (Inv := fun i j n v => vecs D (W * L) v /\
    forall i' j' n', i' < L -> j' < W -> n' < D -> before3 i j n i' j' n' -> lane v (W * i' + j') n' = nth (src i' j' n') from 0%Z).
  edestruct (for_up_inv (fun i v => Inv i 0 0 v)) as (v & E & Hv).
  4: { exists v. split; [exact E|]. destruct Hv as (Vv & Hv). split; [exact Vv|]. intros i j n Hi Hj Hn. apply Hv; auto. left; exact Hi. }
  - lia.
  - cbv beta. intros i v Hi Hv.
    edestruct (for_up_inv (fun j v => Inv i j 0 v)) as (v' & E & Hv').
    4: { exists v'. split; [exact E|]. destruct Hv' as (Vv & H). split; [exact Vv|]. intros i' j' n' A1 A2 A3 B. apply H; auto.
         destruct B as [B|(B1 & [B|(B & B2)])]; [|lia|lia].
         destruct (Nat.eq_dec i' i) as [->|]; [right; split; [reflexivity|left; exact A2]|left; lia]. }
    + lia.
    + cbv beta. intros j v1 Hj Hv1.
      edestruct (for_up_inv (fun n v => Inv i j n v)) as (v' & E & Hv').
      4: { exists v'. split; [exact E|]. destruct Hv' as (Vv & H). split; [exact Vv|]. intros i' j' n' A1 A2 A3 B. apply H; auto.
           destruct B as [B|(B1 & [B|(B & B2)])]; [left; exact B| |lia]. right. split; [exact B1|].
           destruct (Nat.eq_dec j' j) as [->|]; [right; split; [reflexivity|exact A3]|left; lia]. }
      * lia.
      * cbv beta. intros n v2 Hn (V2 & H2). assert (W * i + j < W * L) as Hc by nia.
        pose proof (proj1 V2) as L2. rewrite (rd_nth _ _ []) by lia. cbn [bind].
        assert (src i j n < length from) as Hs by (apply Hsrc; lia).
        rewrite (rd_nth _ _ 0%Z) by exact Hs. cbn [bind].
        pose proof (proj2 V2 _ Hc) as Vc. rewrite wr_Ok by (rewrite (proj1 Vc); lia). cbn [bind]. rewrite wr_Ok by lia.
        eexists. split; [reflexivity|]. split.
        -- apply vecs_upd; [exact V2|]. apply vec_upd; [exact Vc|]. rewrite Forall_forall in F. apply F. apply nth_In. exact Hs.
        -- intros i' j' n' A1 A2 A3 B. unfold lane. destruct (Nat.eq_dec (W * i + j) (W * i' + j')) as [Eq|Hne].
           ++ destruct (cell_inj T D i j i' j' ltac:(lia) A2 Eq) as [<- <-]. rewrite nth_upd_eq by lia.
              destruct (Nat.eq_dec n n') as [<-|Hnn]; [rewrite nth_upd_eq by (rewrite (proj1 Vc); lia); reflexivity|].
              rewrite nth_upd_neq by exact Hnn. apply H2; auto.
              destruct B as [B|(B1 & [B|(B & B2)])]; [left; exact B|right; split; [exact B1|left; exact B]|].
              right. split; [reflexivity|]. right. split; [reflexivity|]. lia.
           ++ rewrite nth_upd_neq by exact Hne. apply H2; auto.
              destruct B as [B|(B1 & [B|(B & B2)])]; [left; exact B|right; split; [exact B1|left; exact B]|]. subst. contradiction.
      * exact Hv1.
    + exact Hv.
  - split; [exact V0|]. intros i j n _ _ _ [B|(B & [B2|(B2 & B3)])]; lia.
Qed.

Lemma store_ok L dst v to view : vecs D (W * L) v ->
  (forall i j n, i < L -> j < W -> n < D -> dst i j n < length to /\ nth (dst i j n) view 0%Z = lane v (W * i + j) n) ->
  (forall p, p < length to -> exists i j n, i < L /\ j < W /\ n < D /\ p = dst i j n) ->
  length view = length to ->
  ldpc_store T D L dst v to = Ok view.
Proof.
  intros Vv Hdst Hcov Lview. unfold ldpc_store.
  set (Inv := fun i j n (t : list Z) => length t = length to /\
    forall i' j' n', i' < L -> j' < W -> n' < D -> before3 i j n i' j' n' -> nth (dst i' j' n') t 0%Z = nth (dst i' j' n') view 0%Z).
  edestruct (for_up_inv (fun i t => Inv i 0 0 t)) as (t & E & Ht).
  4: { rewrite E. f_equal. destruct Ht as (Lt & Ht). apply (list_ext _ _ 0%Z); [lia|]. intros p Hp.
       destruct (Hcov p ltac:(lia)) as (i & j & n & Hi & Hj & Hn & ->). apply Ht; auto. left; exact Hi. }
  - lia.
  - cbv beta. intros i t Hi Ht.
    edestruct (for_up_inv (fun j t => Inv i j 0 t)) as (t' & E & Ht').
    4: { exists t'. split; [exact E|]. destruct Ht' as (Vt & H). split; [exact Vt|]. intros i' j' n' A1 A2 A3 B. apply H; auto.
         destruct B as [B|(B1 & [B|(B & B2)])]; [|lia|lia].
         destruct (Nat.eq_dec i' i) as [->|]; [right; split; [reflexivity|left; exact A2]|left; lia]. }
    + lia.
    + cbv beta. intros j t1 Hj Ht1.
      edestruct (for_up_inv (fun n t => Inv i j n t)) as (t' & E & Ht').
      4: { exists t'. split; [exact E|]. destruct Ht' as (Vt & H). split; [exact Vt|]. intros i' j' n' A1 A2 A3 B. apply H; auto.
           destruct B as [B|(B1 & [B|(B & B2)])]; [left; exact B| |lia]. right. split; [exact B1|].
           destruct (Nat.eq_dec j' j) as [->|]; [right; split; [reflexivity|exact A3]|left; lia]. }
      * lia.
      * cbv beta. intros n t2 Hn (L2 & H2). assert (W * i + j < W * L) as Hc by nia.
        pose proof (proj1 Vv) as L3. rewrite (rd_nth _ _ []) by lia. cbn [bind].
        pose proof (proj2 Vv _ Hc) as Vc. rewrite (rd_nth _ _ 0%Z) by (rewrite (proj1 Vc); lia). cbn [bind].
        destruct (Hdst i j n ltac:(lia) ltac:(lia) ltac:(lia)) as (D1 & D2). rewrite wr_Ok by lia.
        eexists. split; [reflexivity|]. split; [rewrite length_upd; exact L2|].
        intros i' j' n' A1 A2 A3 B. destruct (Nat.eq_dec (dst i j n) (dst i' j' n')) as [Eq|Hne].
        -- rewrite <- Eq. rewrite nth_upd_eq by lia. rewrite D2. reflexivity.
        -- rewrite nth_upd_neq by exact Hne. apply H2; auto.
           destruct B as [B|(B1 & [B|(B & B2)])]; [left; exact B|right; split; [exact B1|left; exact B]|].
           destruct (Nat.eq_dec n' n) as [->|]; [subst; contradiction|]. right. split; [exact B1|]. right. split; [exact B|lia].
      * exact Ht1.
    + exact Ht.
  - split; [reflexivity|]. intros i j n _ _ _ [B|(B & [B2|(B2 & B3)])]; lia.
Qed.

Lemma length_msg_view v : length (msg_view T D v) = t_K T.
Proof. unfold Spec_ldpc.msg_view. rewrite map_length. apply seq_length. Qed.
Lemma length_pty_view v : length (pty_view T D v) = t_R T.
Proof. unfold Spec_ldpc.pty_view. rewrite map_length. apply seq_length. Qed.
Lemma i8_msg_view v : vecs D (d_MSG T D) v -> Forall i8 (msg_view T D v).
Proof.
  intros (Lv & Vv). apply Forall_nth. intros p d Hp. rewrite length_msg_view in Hp.
  rewrite nth_indep with (d' := 0%Z) by (rewrite length_msg_view; exact Hp).
  destruct (msg_pos T D DOK p Hp) as (i & j & n & Hi & Hj & Hn & ->).
  rewrite (proj2 (msg_view_at T D DOK v i j n Hi Hj Hn)). apply (vec_nth D). apply Vv. rewrite (MSG_eq T D DOK). nia.
Qed.
Lemma i8_pty_view v : vecs D (d_PTY T D) v -> Forall i8 (pty_view T D v).
Proof.
  intros (Lv & Vv). apply Forall_nth. intros p d Hp. rewrite length_pty_view in Hp.
  rewrite nth_indep with (d' := 0%Z) by (rewrite length_pty_view; exact Hp).
  destruct (pty_pos T D DOK p Hp) as (i & j & n & Hi & Hj & Hn & ->).
  rewrite (proj2 (pty_view_at T D DOK v i j n Hi Hj Hn)). apply (vec_nth D). apply Vv. rewrite (PTY_eq T D DOK). nia.
Qed.

Variable BETA : Z.
Hypothesis HB : (0 <= BETA <= 255)%Z.
Variable C : ldpc_const.
Hypothesis HC : counts T (lc_cnc C).
Hypothesis HS : segs T D (fun _ _ => True) (lc_loc C).

Definition clean (s : ldpc_state) : Prop := satisfies T (msg_view T D (ls_msg s)) (pty_view T D (ls_pty s)).

Lemma iterate_ok fuel : forall s trials, shaped T D s -> (- 2147483648 < trials <= 2147483647)%Z -> fuel = S (Z.to_nat trials) ->
  exists s' t, ldpc_iterate T D BETA fuel C s trials = Ok (s', t) /\ shaped T D s' /\
    (forall y, nth y (ls_wd s) 0%N = 0%N -> nth y (ls_wd s') 0%N = 0%N) /\
    (clean s -> s' = s /\ t = trials) /\
    ((0 <= trials)%Z -> (0 <= t <= trials)%Z /\ clean s' \/ t = (-1)%Z /\ ~ clean s') /\
    ((trials < 0)%Z -> s' = s /\ (t = trials \/ t = (trials - 1)%Z)).
Proof.
  induction fuel as [|f IH]; intros s trials Hs Ht Hf; [discriminate|]. cbn [ldpc_iterate].
  destruct (bad_ok T D DOK C HC HS (ls_msg s) (ls_pty s)) as (b & E & Hb); [apply Hs|apply Hs|].
  rewrite E. cbn [bind]. fold (clean s) in Hb. destruct b.
  - assert (~ clean s) as Hn by (intros H; apply Hb in H; discriminate).
    unfold chk. assert (int_ok (trials - 1) = true) as -> by (unfold int_ok; lia). cbn [bind].
    destruct (Z.leb_spec 0 (trials - 1)).
    + destruct (update_ok T D DOK BETA HB C HC HS s Hs) as (s1 & E1 & Hs1 & Hz1). rewrite E1. cbn [bind].
      destruct (IH s1 (trials - 1)%Z Hs1 ltac:(lia) ltac:(lia)) as (s' & t & E2 & Hs' & Hz & I1 & I2 & I3).
      exists s', t. split; [exact E2|]. split; [exact Hs'|]. split; [auto|]. split; [contradiction|]. split; [|intros; lia].
      intros _. destruct (I2 ltac:(lia)) as [(J1 & J2)|J]; [left; split; [lia|exact J2]|right; exact J].
    + exists s, (trials - 1)%Z. split; [reflexivity|]. split; [exact Hs|]. split; [auto|]. split; [contradiction|]. split.
      * intros. right. split; [lia|exact Hn].
      * intros. split; [reflexivity|right; reflexivity].
  - assert (clean s) as Hc by (apply Hb; reflexivity).
    exists s, trials. split; [reflexivity|]. split; [exact Hs|]. split; [auto|]. split; [auto|]. split.
    + intros. left. split; [lia|exact Hc].
    + auto.
Qed.

Theorem decode_ok s message parity trials :
  shaped T D s -> length message = t_K T -> length parity = t_R T -> Forall i8 message -> Forall i8 parity ->
  (- 2147483648 < trials <= 2147483647)%Z ->
  exists s' m' p' t, ldpc_decode T D BETA C s message parity trials = Ok (s', m', p', t) /\ shaped T D s' /\
    (forall y, nth y (ls_wd s) 0%N = 0%N -> nth y (ls_wd s') 0%N = 0%N) /\
    length m' = t_K T /\ length p' = t_R T /\ Forall i8 m' /\ Forall i8 p' /\
    (satisfies T message parity -> m' = message /\ p' = parity /\ t = trials) /\
    ((0 <= trials)%Z -> (0 <= t <= trials)%Z /\ satisfies T m' p' \/ t = (-1)%Z /\ ~ satisfies T m' p') /\
    ((trials < 0)%Z -> m' = message /\ p' = parity /\ (t = trials \/ t = (trials - 1)%Z)).
Proof.
  intros (Vb & Vm & Vp & Lw) Lm Lp Fm Fp Ht. unfold ldpc_decode.
  edestruct (for_up_inv (fun (_ : nat) bnl => vecs D (d_BNL T D) bnl)) as (bnl & E1 & Vb').
  4: { rewrite E1. cbn [bind]. rewrite (blocks_eq T D DOK).
    destruct (load_ok (length rows) (d_msg_at T D) message (ls_msg s)) as (msg & E2 & Vm' & Hm).
    { rewrite <- (MSG_eq T D DOK). exact Vm. }
    { exact Fm. }
    { intros i j n Hi Hj Hn. rewrite Lm. apply (msg_view_at T D DOK [] i j n Hi Hj Hn). }
    rewrite E2. cbn [bind].
    destruct (load_ok q (d_pty_at T D) parity (ls_pty s)) as (pty & E3 & Vp' & Hp).
    { rewrite <- (PTY_eq T D DOK). exact Vp. }
    { exact Fp. }
    { intros i j n Hi Hj Hn. rewrite Lp. apply (pty_view_at T D DOK [] i j n Hi Hj Hn). }
    rewrite E3. cbn [bind].
    assert (msg_view T D msg = message) as EM.
    { apply (list_ext _ _ 0%Z); [rewrite length_msg_view; lia|]. intros p Hpp. rewrite length_msg_view in Hpp.
      destruct (msg_pos T D DOK p Hpp) as (i & j & n & Hi & Hj & Hn & ->).
      rewrite (proj2 (msg_view_at T D DOK msg i j n Hi Hj Hn)). apply Hm; assumption. }
    assert (pty_view T D pty = parity) as EP.
    { apply (list_ext _ _ 0%Z); [rewrite length_pty_view; lia|]. intros p Hpp. rewrite length_pty_view in Hpp.
      destruct (pty_pos T D DOK p Hpp) as (i & j & n & Hi & Hj & Hn & ->).
      rewrite (proj2 (pty_view_at T D DOK pty i j n Hi Hj Hn)). apply Hp; assumption. }
    rewrite <- (MSG_eq T D DOK) in Vm'. rewrite <- (PTY_eq T D DOK) in Vp'.
    destruct (iterate_ok (S (Z.to_nat trials)) (mk_ls bnl msg pty (ls_wd s)) trials) as (s' & t & E4 & Hs' & Hz & I1 & I2 & I3);
      [split; [exact Vb'|split; [exact Vm'|split; [exact Vp'|exact Lw]]]|exact Ht|reflexivity|].
    rewrite E4. cbn [bind]. unfold clean in I1, I2. cbn [ls_msg ls_pty] in I1.
    destruct Hs' as (Vb2 & Vm2 & Vp2 & Lw2).
    rewrite (store_ok (length rows) (d_msg_at T D) (ls_msg s') message (msg_view T D (ls_msg s'))).
    - cbn [bind]. rewrite (store_ok q (d_pty_at T D) (ls_pty s') parity (pty_view T D (ls_pty s'))).
      + cbn [bind]. eexists _, _, _, _. split; [reflexivity|]. split; [split; [exact Vb2|split; [exact Vm2|split; [exact Vp2|exact Lw2]]]|]. split; [exact Hz|].
        rewrite length_msg_view, length_pty_view. split; [reflexivity|]. split; [reflexivity|].
        split; [apply i8_msg_view; exact Vm2|]. split; [apply i8_pty_view; exact Vp2|].
        rewrite EM, EP in I1. split; [|split; [exact I2|]].
        * intros Hsat. destruct (I1 Hsat) as (-> & ->). cbn [ls_msg ls_pty]. auto.
        * intros Hneg. destruct (I3 Hneg) as (-> & Ht'). cbn [ls_msg ls_pty]. auto.
      + rewrite <- (PTY_eq T D DOK). exact Vp2.
      + intros i j n Hi Hj Hn. rewrite Lp. apply (pty_view_at T D DOK (ls_pty s') i j n Hi Hj Hn).
      + intros p Hpp. rewrite Lp in Hpp. apply (pty_pos T D DOK p Hpp).
      + rewrite length_pty_view. lia.
    - rewrite <- (MSG_eq T D DOK). exact Vm2.
    - intros i j n Hi Hj Hn. rewrite Lm. apply (msg_view_at T D DOK (ls_msg s') i j n Hi Hj Hn).
    - intros p Hpp. rewrite Lm in Hpp. apply (msg_pos T D DOK p Hpp).
    - rewrite length_msg_view. lia. }
  - lia.
  - cbv beta. intros i bnl Hi Vbi. pose proof (proj1 Vbi) as L. rewrite wr_Ok by lia. eexists. split; [reflexivity|].
    apply vecs_upd; [exact Vbi|]. apply vec_dup. unfold i8. lia.
  - exact Vb.
Qed.
End Decode.

(** the result depends on the object only through [wd] *)
Section History.
Variable T : table.
Variable D : nat.
Hypothesis DOK : decoder_ok T D.
Notation OK := (ok_table T D DOK).
Notation q := (t_q T).
Notation rows := (rows_of T).
Notation W := (d_W T D).

Lemma vecs_ext L a b : vecs D L a -> vecs D L b -> (forall x n, x < L -> n < D -> lane a x n = lane b x n) -> a = b.
Proof.
  intros (La & Va) (Lb & Vb) H. apply (list_ext _ _ []); [lia|]. intros x Hx.
  apply (list_ext _ _ 0%Z); [rewrite (proj1 (Va x ltac:(lia))), (proj1 (Vb x ltac:(lia))); reflexivity|].
  intros n Hn. rewrite (proj1 (Va x ltac:(lia))) in Hn. apply H; lia.
Qed.
Lemma load_same L src from v1 v2 : vecs D (W * L) v1 -> vecs D (W * L) v2 -> Forall i8 from ->
  (forall i j n, i < L -> j < W -> n < D -> src i j n < length from) ->
  ldpc_load T D L src from v1 = ldpc_load T D L src from v2.
Proof.
  intros V1 V2 F Hs. pose proof (W_pos T D DOK) as HW.
  destruct (load_ok T D L src from v1 V1 F Hs) as (r1 & -> & R1 & H1).
  destruct (load_ok T D L src from v2 V2 F Hs) as (r2 & -> & R2 & H2). f_equal. apply (vecs_ext (W * L)); [exact R1|exact R2|].
  intros x n Hx Hn. rewrite (Nat.div_mod x W) by lia.
  assert (x / W < L) by (apply Nat.div_lt_upper_bound; lia). pose proof (Nat.mod_upper_bound x W ltac:(lia)).
  rewrite H1, H2 by assumption. reflexivity.
Qed.
Lemma clear_ok bnl : length bnl = d_BNL T D ->
  for_up 0 (d_BNL T D) (fun i bnl => wr bnl i (vzero D)) bnl = Ok (repeat (vzero D) (d_BNL T D)).
Proof.
  intros L0. edestruct (for_up_inv (fun i (b : list (list Z)) => length b = d_BNL T D /\ forall y, y < i -> nth y b [] = vzero D))
    as (b & E & L & H).
  4: { rewrite E. f_equal. apply (list_ext _ _ []); [rewrite repeat_length; exact L|]. intros y Hy. rewrite H by lia.
       rewrite nth_indep with (d' := vzero D) by (rewrite repeat_length; lia). symmetry. apply nth_repeat. }
  - lia.
  - cbv beta. intros i b Hi (L & H). rewrite wr_Ok by lia. eexists. split; [reflexivity|]. rewrite length_upd. split; [exact L|].
    intros y Hy. destruct (Nat.eq_dec i y) as [<-|]; [apply nth_upd_eq; lia|]. rewrite nth_upd_neq by assumption. apply H. lia.
  - split; [exact L0|]. intros; lia.
Qed.
Theorem decode_same BETA C s1 s2 message parity trials :
  shaped T D s1 -> shaped T D s2 -> ls_wd s1 = ls_wd s2 ->
  length message = t_K T -> length parity = t_R T -> Forall i8 message -> Forall i8 parity ->
  ldpc_decode T D BETA C s1 message parity trials = ldpc_decode T D BETA C s2 message parity trials.
Proof.
  intros (Vb1 & Vm1 & Vp1 & Lw1) (Vb2 & Vm2 & Vp2 & Lw2) Ew Lm Lp Fm Fp. unfold ldpc_decode.
  rewrite (clear_ok (ls_bnl s1)) by apply Vb1. rewrite (clear_ok (ls_bnl s2)) by apply Vb2. cbn [bind].
  rewrite (blocks_eq T D DOK).
  rewrite (load_same (length rows) (d_msg_at T D) message (ls_msg s1) (ls_msg s2));
    [|rewrite <- (MSG_eq T D DOK); assumption|rewrite <- (MSG_eq T D DOK); assumption|exact Fm|].
  2: { intros i j n Hi Hj Hn. rewrite Lm. apply (msg_view_at T D DOK [] i j n Hi Hj Hn). }
  rewrite (load_same q (d_pty_at T D) parity (ls_pty s1) (ls_pty s2));
    [|rewrite <- (PTY_eq T D DOK); assumption|rewrite <- (PTY_eq T D DOK); assumption|exact Fp|].
  2: { intros i j n Hi Hj Hn. rewrite Lp. apply (pty_view_at T D DOK [] i j n Hi Hj Hn). }
  rewrite Ew. reflexivity.
Qed.
End History.
