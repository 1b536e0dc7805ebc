(** LDPC decoder: what a codeword's signs do to a check node. *)
From Coq Require Import ZifyBool Permutation.
From Verif Require Import Cpp Model_simd Model_ldpc Spec_ldpc Lib_list Proof_bits Proof_simd Proof_ldpc1 Proof_ldpc2 Proof_ldpc3 Proof_ldpc4 Proof_ldpc5 Proof_ldpc6 Proof_ldpc7 Proof_ldpc8 Proof_ldpc9.
Open Scope Z_scope.
Ltac Zify.zify_post_hook ::= idtac.

Definition sg1 (s : Z) : Prop := s = 1 \/ s = -1.
Lemma sg1_mul a b : sg1 a -> sg1 b -> sg1 (a * b).
Proof. unfold sg1. lia. Qed.
Lemma sg1_sq a : sg1 a -> a * a = 1.
Proof. intros [-> | ->]; reflexivity. Qed.
Lemma saturate_turn s x : sg1 s -> -127 <= x <= 127 -> saturate (s * x) = s * saturate x.
Proof. unfold saturate. intros [-> | ->] H; lia. Qed.
Lemma magnitude_turn b s x : sg1 s -> magnitude b (s * x) = magnitude b x.
Proof. unfold magnitude. intros [-> | ->]; f_equal; lia. Qed.
Lemma positive_turn s x : sg1 s -> x <> 0 -> positive (s * x) = s * positive x.
Proof. unfold positive. intros [-> | ->] H; destruct (Z.ltb_spec x 0); [replace (1 * x <? 0) with true by lia|replace (1 * x <? 0) with false by lia|replace (-1 * x <? 0) with false by lia|replace (-1 * x <? 0) with true by lia]; reflexivity. Qed.
Definition turn (ss xs : list Z) : list Z := map (fun p => fst p * snd p) (combine ss xs).
Definition prod1 (ss : list Z) : Z := fold_right Z.mul 1 ss.
Lemma node_min_turn b ss : forall xs, length ss = length xs -> Forall sg1 ss -> node_min b (turn ss xs) = node_min b xs.
Proof.
  induction ss as [|s ss IH]; intros [|x xs] L F; try discriminate; [reflexivity|]. inversion F as [|? ? F1 F2]. cbn [length] in L.
  unfold node_min, turn in *. cbn [combine map fold_right fst snd]. rewrite magnitude_turn by exact F1. f_equal. apply IH; [lia|exact F2].
Qed.
Lemma node_min_zero b xs : 0 <= b -> In 0 xs -> node_min b xs <= 0.
Proof.
  intros Hb. induction xs as [|x xs IH]; intros H; [destruct H|]. unfold node_min in *. cbn [fold_right]. destruct H as [-> |H].
  - unfold magnitude at 1. lia.
  - specialize (IH H). lia.
Qed.
Lemma node_min_pos b xs : 0 <= node_min b xs.
Proof. unfold node_min. induction xs as [|x xs IH]; cbn [fold_right]; [lia|]. unfold magnitude at 1. lia. Qed.
Lemma node_sign_turn ss : forall xs, length ss = length xs -> Forall sg1 ss -> ~ In 0 xs -> node_sign (turn ss xs) = prod1 ss * node_sign xs.
Proof.
  induction ss as [|s ss IH]; intros [|x xs] L F H; try discriminate; [reflexivity|]. inversion F as [|? ? F1 F2]. cbn [length] in L.
  unfold node_sign, turn, prod1 in *. cbn [combine map fold_right fst snd]. rewrite positive_turn; [|exact F1|intros ->; apply H; left; reflexivity].
  rewrite IH; [lia|lia|exact F2|intros HH; apply H; right; exact HH].
Qed.
Lemma others_turn ss : forall xs k, length ss = length xs -> others (turn ss xs) k = turn (others ss k) (others xs k).
Proof.
  unfold others, turn. induction ss as [|s ss IH]; intros [|x xs] k L; try discriminate; [destruct k; reflexivity|]. cbn [length] in L. destruct k as [|k]; [reflexivity|].
  cbn [combine map firstn skipn Datatypes.app]. f_equal. apply IH. lia.
Qed.
Lemma others_length {A} (l : list A) k : (k < length l)%nat -> length (others l k) = (length l - 1)%nat.
Proof. intros H. unfold others. rewrite app_length, firstn_length, skipn_length. lia. Qed.
Lemma others_in {A} (l : list A) : forall k x, In x (others l k) -> In x l.
Proof.
  unfold others. induction l as [|a l IH]; intros [|k] x H; cbn [firstn skipn Datatypes.app] in H; try (destruct H; fail); [right; exact H|].
  destruct H as [H|H]; [left; exact H|right; apply (IH k); exact H].
Qed.
Lemma prod1_others ss : forall k, (k < length ss)%nat -> prod1 ss = nth k ss 0 * prod1 (others ss k).
Proof.
  induction ss as [|s ss IH]; intros k H; cbn [length] in H; [lia|]. destruct k as [|k]; [reflexivity|].
  change (others (s :: ss) (S k)) with (s :: others ss k). change (prod1 (s :: ss)) with (s * prod1 ss). change (prod1 (s :: others ss k)) with (s * prod1 (others ss k)). cbn [nth].
  rewrite (IH k ltac:(lia)). ring.
Qed.
Lemma node_message_turn b ss xs k : 0 <= b -> length ss = length xs -> (k < length ss)%nat -> Forall sg1 ss -> prod1 ss = 1 ->
  node_message b (turn ss xs) k = nth k ss 0 * node_message b xs k.
Proof.
  intros Hb L Hk F P. unfold node_message. rewrite others_turn by exact L. set (so := others ss k). set (xo := others xs k).
  assert (length so = length xo) as Lo by (unfold so, xo; rewrite !others_length by lia; lia).
  assert (Forall sg1 so) as Fo by (apply Forall_forall; intros x Hx; rewrite Forall_forall in F; apply F; apply others_in in Hx; exact Hx).
  assert (sg1 (nth k ss 0)) as Sk by (rewrite Forall_forall in F; apply F, nth_In; exact Hk).
  rewrite node_min_turn by assumption. pose proof (prod1_others ss k Hk) as PO. rewrite P in PO. fold so in PO.
  destruct (in_dec Z.eq_dec 0 xo) as [I0|N0].
  - pose proof (node_min_zero b xo Hb I0). pose proof (node_min_pos b xo). replace (node_min b xo) with 0 by lia. rewrite !Z.mul_0_r. cbn. lia.
  - rewrite node_sign_turn by assumption. assert (prod1 so = nth k ss 0) as -> by (destruct Sk as [E|E]; rewrite E in *; lia).
    destruct Sk as [-> | ->]; lia.
Qed.
Lemma self_corrected_turn s old new : sg1 s -> self_corrected (s * old) (s * new) = s * self_corrected old new.
Proof.
  intros S. unfold self_corrected. replace (s * old * (s * new)) with (s * s * (old * new)) by lia. rewrite sg1_sq, Z.mul_1_l by exact S. destruct (old * new <? 0); lia.
Qed.

Open Scope nat_scope.
Lemma for_up_two {X Y} (R : nat -> X -> Y -> Prop) (f : nat -> X -> res X) (g : nat -> Y -> res Y) a b x y : a <= b ->
  (forall i x y, a <= i < b -> R i x y -> exists x' y', f i x = Ok x' /\ g i y = Ok y' /\ R (S i) x' y') -> R a x y ->
  exists x' y', for_up a b f x = Ok x' /\ for_up a b g y = Ok y' /\ R b x' y'.
Proof.
  intros Hab Hs. unfold for_up. remember (b - a) as n eqn:En. revert a x y Hab Hs En. induction n as [|n IH]; intros a x y Hab Hs En H.
  - cbn [loop]. exists x, y. replace b with a by lia. auto.
  - cbn [loop]. destruct (Hs a x y ltac:(lia) H) as (x1 & y1 & -> & -> & H1). cbn [bind]. apply (IH (S a)); [lia|intros; apply Hs; [lia|assumption]|lia|exact H1].
Qed.
(** the last index below [n] with [P], if any *)
Lemma last_such (P : nat -> bool) n : (exists k, k < n /\ P k = true /\ forall k', k < k' < n -> P k' = false) \/ (forall k, k < n -> P k = false).
Proof.
  induction n as [|n [(k & A & B & H)|H]]; [right; lia| |].
  - destruct (P n) eqn:E; [left; exists n; repeat split; [lia|exact E|lia]|]. left. exists k. split; [lia|]. split; [exact B|]. intros k' Hk'. destruct (Nat.eq_dec k' n) as [->|]; [exact E|apply H; lia].
  - destruct (P n) eqn:E; [left; exists n; repeat split; [lia|exact E|lia]|]. right. intros k Hk. destruct (Nat.eq_dec k n) as [->|]; [exact E|apply H; lia].
Qed.

Section Turn.
Variable T : table.
Variable D : nat.
Hypothesis DOK : decoder_ok T D.
Variable BETA : Z.
Hypothesis HB : (0 <= BETA <= 255)%Z.
Notation OK := (ok_table T D DOK).
Notation M := (t_M T).
Notation q := (t_q T).
Notation rows := (rows_of T).
Notation cl i := (cls M q i 0 rows).
Notation W := (d_W T D).
Variable C : ldpc_const.
Hypothesis HC : counts T (lc_cnc C).
Hypothesis HS : segs T D (fun _ _ => True) (lc_loc C).
Notation bb i j := (bbase T D i j).
Hypothesis HWq : 1 < W * q.
(** the signs of a codeword, in the decoder's arrays *)
Variables cm cp : list (list Z).
Hypothesis Sm : forall x n, x < d_MSG T D -> n < D -> sg1 (lane cm x n).
Hypothesis Sp : forall p, p < t_R T -> sg1 (nth p (pty_view T D cp) 0%Z).
Hypothesis HCW : forall p, p < t_R T -> check_prod T (msg_view T D cm) (pty_view T D cp) p = 1%Z.

Definition fs (i j k n : nat) : Z := Z.sgn (fetched T D C cm cp i j k n).
Lemma sgn_sg1 x : sg1 x -> Z.sgn x = x.
Proof. intros [-> | ->]; reflexivity. Qed.
Lemma at_lt i j n : i < q -> j < W -> n < D -> d_pty_at T D i j n < t_R T.
Proof. intros Hi Hj Hn. apply (pty_view_at T D DOK [] i j n Hi Hj Hn). Qed.
Lemma fs_link i j k n : i < q -> j < W -> n < D -> k < length (cl i) -> fs i j k n = lane cm (fst (link_at T D C i j k)) ((n + snd (link_at T D C i j k)) mod D) /\
  fst (link_at T D C i j k) < d_MSG T D /\ snd (link_at T D C i j k) < D.
Proof.
  intros Hi Hj Hn Hk. destruct (loc_bound T D DOK _ i j k HS Hi Hj Hk) as (_ & B1 & B2). split; [|split; assumption].
  unfold fs, fetched. replace (k <? length (cl i)) with true by lia. apply sgn_sg1. apply Sm; [exact B1|]. apply Nat.mod_upper_bound. pose proof (D_pos T D DOK). lia.
Qed.
Lemma fs_own i j n : i < q -> j < W -> n < D -> fs i j (length (cl i)) n = nth (d_pty_at T D i j n) (pty_view T D cp) 0%Z.
Proof.
  intros Hi Hj Hn. unfold fs, fetched. replace (length (cl i) <? length (cl i)) with false by lia. rewrite Nat.eqb_refl. apply sgn_sg1, Sp. apply at_lt; assumption.
Qed.
Lemma fs_prev i j n : i < q -> j < W -> n < D -> fs i j (length (cl i) + 1) n = if d_pty_at T D i j n =? 0 then 1%Z else nth (d_pty_at T D i j n - 1) (pty_view T D cp) 0%Z.
Proof.
  intros Hi Hj Hn. unfold fs, fetched. replace (length (cl i) + 1 <? length (cl i)) with false by lia. replace (length (cl i) + 1 =? length (cl i)) with false by lia.
  pose proof (at_lt i j n Hi Hj Hn). destruct (d_pty_at T D i j n =? 0); [reflexivity|]. apply sgn_sg1, Sp. lia.
Qed.
Lemma fs_sg1 i j k n : i < q -> j < W -> n < D -> k < length (cl i) + 2 -> sg1 (fs i j k n).
Proof.
  intros Hi Hj Hn Hk. pose proof (at_lt i j n Hi Hj Hn). destruct (Nat.lt_ge_cases k (length (cl i))) as [L|L].
  - destruct (fs_link i j k n Hi Hj Hn L) as (-> & B1 & B2). apply Sm; [exact B1|]. apply Nat.mod_upper_bound. pose proof (D_pos T D DOK). lia.
  - destruct (Nat.eq_dec k (length (cl i))) as [->|N]; [rewrite fs_own by assumption; apply Sp; assumption|]. replace k with (length (cl i) + 1) by lia. rewrite fs_prev by assumption.
    destruct (Nat.eqb_spec (d_pty_at T D i j n) 0); [left; reflexivity|apply Sp; lia].
Qed.

(** the second object is the first one turned by the codeword *)
Definition msg_turned (m1 m2 : list (list Z)) : Prop := forall x n, x < d_MSG T D -> n < D -> lane m2 x n = (lane cm x n * lane m1 x n)%Z.
Definition pty_turned (p1 p2 : list (list Z)) : Prop := forall p, p < t_R T -> nth p (pty_view T D p2) 0%Z = (nth p (pty_view T D cp) 0 * nth p (pty_view T D p1) 0)%Z.
Definition bnl_turned (b1 b2 : list (list Z)) : Prop := forall i j k n, i < q -> j < W -> k < length (cl i) + 2 -> n < D -> lane b2 (bb i j + k) n = (fs i j k n * lane b1 (bb i j + k) n)%Z.
Definition state_turned (s1 s2 : ldpc_state) : Prop :=
  shaped T D s1 /\ shaped T D s2 /\ ls_wd s1 = ls_wd s2 /\ msg_turned (ls_msg s1) (ls_msg s2) /\ pty_turned (ls_pty s1) (ls_pty s2) /\ bnl_turned (ls_bnl s1) (ls_bnl s2).
(** nothing saturates in a layer (the link in place of the missing parity before the first does not count) *)
Definition calm (s : ldpc_state) (i j : nat) : Prop := forall k n, k < length (cl i) + 2 -> n < D -> (k = length (cl i) + 1 -> d_pty_at T D i j n <> 0) ->
  (-127 <= fetched T D C (ls_msg s) (ls_pty s) i j k n - lane (ls_bnl s) (bb i j + k) n <= 127)%Z /\
  (-127 <= arriving T D C (ls_bnl s) (ls_msg s) (ls_pty s) i j n k + sent T D C BETA (ls_bnl s) (ls_msg s) (ls_pty s) i j n k <= 127)%Z.

Section Layer.
Variables s1 s2 : ldpc_state.
Hypothesis HR : state_turned s1 s2.
Variables i j : nat.
Hypothesis Hi : i < q.
Hypothesis Hj : j < W.
Hypothesis HCalm : calm s1 i j.
Lemma fetched_turned k n : k < length (cl i) + 2 -> n < D -> fetched T D C (ls_msg s2) (ls_pty s2) i j k n = (fs i j k n * fetched T D C (ls_msg s1) (ls_pty s1) i j k n)%Z.
Proof.
  intros Hk Hn. destruct HR as (_ & _ & _ & Rm & Rp & _). pose proof (at_lt i j n Hi Hj Hn). destruct (Nat.lt_ge_cases k (length (cl i))) as [L|L].
  - destruct (fs_link i j k n Hi Hj Hn L) as (-> & B1 & B2). unfold fetched. replace (k <? length (cl i)) with true by lia. apply Rm; [exact B1|]. apply Nat.mod_upper_bound. pose proof (D_pos T D DOK). lia.
  - destruct (Nat.eq_dec k (length (cl i))) as [->|N].
    + rewrite fs_own by assumption. unfold fetched. replace (length (cl i) <? length (cl i)) with false by lia. rewrite Nat.eqb_refl. apply Rp. assumption.
    + replace k with (length (cl i) + 1) by lia. rewrite fs_prev by assumption. unfold fetched. replace (length (cl i) + 1 <? length (cl i)) with false by lia. replace (length (cl i) + 1 =? length (cl i)) with false by lia.
      destruct (Nat.eqb_spec (d_pty_at T D i j n) 0); [reflexivity|]. apply Rp. lia.
Qed.
Lemma free_or k n : (k = length (cl i) + 1 -> d_pty_at T D i j n <> 0) \/ (k = length (cl i) + 1 /\ d_pty_at T D i j n = 0).
Proof. lia. Qed.
Lemma arriving_turned k n : k < length (cl i) + 2 -> n < D ->
  arriving T D C (ls_bnl s2) (ls_msg s2) (ls_pty s2) i j n k = (fs i j k n * arriving T D C (ls_bnl s1) (ls_msg s1) (ls_pty s1) i j n k)%Z.
Proof.
  intros Hk Hn. unfold arriving. rewrite fetched_turned by assumption. destruct HR as (_ & _ & _ & _ & _ & Rb). rewrite (Rb i j k n) by assumption.
  rewrite <- Z.mul_sub_distr_l. destruct (free_or k n) as [F|F]; [apply saturate_turn; [apply fs_sg1; assumption|]; apply HCalm; assumption|]. destruct F as (F1 & F2). rewrite F1, fs_prev, F2, Nat.eqb_refl by assumption. rewrite !Z.mul_1_l. reflexivity.
Qed.
Lemma signs_prod n : n < D -> prod1 (map (fun k => fs i j k n) (seq 0 (length (cl i) + 2))) = 1%Z.
Proof.
  intros Hn. change prod1 with zprod. unfold fs. rewrite (fetched_prod T D DOK C HS) by assumption. apply HCW. apply at_lt; assumption.
Qed.
Lemma sent_turned k n : k < length (cl i) + 2 -> n < D ->
  sent T D C BETA (ls_bnl s2) (ls_msg s2) (ls_pty s2) i j n k = (fs i j k n * sent T D C BETA (ls_bnl s1) (ls_msg s1) (ls_pty s1) i j n k)%Z.
Proof.
  intros Hk Hn. unfold sent. set (ss := map (fun k => fs i j k n) (seq 0 (length (cl i) + 2))).
  assert (arrivals T D C (ls_bnl s2) (ls_msg s2) (ls_pty s2) i j n = turn ss (arrivals T D C (ls_bnl s1) (ls_msg s1) (ls_pty s1) i j n)) as ->.
  { apply (list_ext _ _ 0%Z); [unfold turn, ss, arrivals; rewrite !map_length, combine_length, !map_length, !seq_length; lia|].
    intros k' Hk'. unfold arrivals in Hk'. rewrite map_length, seq_length in Hk'. rewrite arrivals_nth, arriving_turned by assumption.
    unfold turn. rewrite (nth_map1 _ _ _ (0, 0)%Z) by (unfold ss, arrivals; rewrite combine_length, !map_length, !seq_length; lia).
    rewrite combine_nth by (unfold ss, arrivals; rewrite !map_length, !seq_length; reflexivity). cbn [fst snd]. rewrite arrivals_nth by exact Hk'. f_equal.
    unfold ss. rewrite (nth_map1 _ _ _ 0) by (rewrite seq_length; exact Hk'). rewrite seq_nth by exact Hk'. reflexivity. }
  rewrite node_message_turn; [|lia|unfold ss, arrivals; rewrite !map_length, !seq_length; reflexivity|unfold ss; rewrite map_length, seq_length; exact Hk| |apply signs_prod; exact Hn].
  - assert (nth k ss 0%Z = fs i j k n) as -> by (unfold ss; rewrite (nth_map1 _ _ _ 0) by (rewrite seq_length; exact Hk); rewrite seq_nth by exact Hk; reflexivity).
    destruct HR as (_ & _ & _ & _ & _ & Rb). rewrite (Rb i j k n) by assumption. apply self_corrected_turn. apply fs_sg1; assumption.
  - apply Forall_forall. intros x Hx. apply in_map_iff in Hx. destruct Hx as (k' & <- & Hk'). apply in_seq in Hk'. apply fs_sg1; [assumption..|lia].
Qed.
Lemma result_turned k n : k < length (cl i) + 2 -> n < D ->
  result T D C BETA (ls_bnl s2) (ls_msg s2) (ls_pty s2) i j n k = (fs i j k n * result T D C BETA (ls_bnl s1) (ls_msg s1) (ls_pty s1) i j n k)%Z.
Proof.
  intros Hk Hn. unfold result. rewrite arriving_turned, sent_turned by assumption. rewrite <- Z.mul_add_distr_l. destruct (free_or k n) as [F|F]; [apply saturate_turn; [apply fs_sg1; assumption|]; apply HCalm; assumption|]. destruct F as (F1 & F2). rewrite F1, fs_prev, F2, Nat.eqb_refl by assumption. rewrite !Z.mul_1_l. reflexivity.
Qed.
End Layer.
Lemma bbase_apart i j i' j' k k' : j < W -> j' < W -> k < length (cl i) + 2 -> k' < length (cl i') + 2 -> bb i j + k = bb i' j' + k' -> i = i' /\ j = j' /\ k = k'.
Proof.
  intros Hj Hj' Hk Hk' E.
  assert (forall a b a' b' l l', b < W -> b' < W -> a < a' \/ (a = a' /\ b < b') -> l < length (cl a) + 2 -> bb a b + l <> bb a' b' + l') as A.
  { intros a b a' b' l l' Hb Hb' Lt Hl. pose proof (base_le T D a b a' b' Hb Lt) as B. unfold bbase. assert (W * a + b + 1 <= W * a' + b') as Q; [|lia].
    destruct Lt as [Lt|(-> & Lt)]; [|lia]. nia. }
  destruct (Nat.lt_trichotomy i i') as [L|[->|L]]; [destruct (A i j i' j' k k' Hj Hj' (or_introl L) Hk E)| |destruct (A i' j' i j k' k Hj' Hj (or_introl L) Hk' (eq_sym E))].
  destruct (Nat.lt_trichotomy j j') as [L|[->|L]]; [destruct (A i' j i' j' k k' Hj Hj' (or_intror (conj eq_refl L)) Hk E)| |destruct (A i' j' i' j k' k Hj' Hj (or_intror (conj eq_refl L)) Hk' (eq_sym E))].
  split; [reflexivity|]. split; [reflexivity|lia].
Qed.
Lemma layer_rotates cnt bl lo i j s x s' : ldpc_layer T D BETA C cnt i j (bl, lo, s) = Ok (x, s') -> ldpc_rotate_wd T D C cnt lo i j (ls_wd s) = Ok (ls_wd s').
Proof.
  intros E. unfold ldpc_layer in E.
  destruct (ldpc_pass1 _ _ _ _ _ _ _ _ _ _ _) as [[[[[m0 m1] sg] ip] mg]| | |]; try discriminate. cbn [bind] in E.
  destruct (ldpc_pass2 _ _ _ _ _ _ _ _ _ _ _ _ _ _) as [[[b m] p]| | |]; try discriminate. cbn [bind] in E.
  destruct (ldpc_rotate_wd _ _ _ _ _ _ _ _) as [wd'| | |] eqn:Er; try discriminate. cbn [bind] in E. injection E as _ <-. reflexivity.
Qed.
Theorem layer_turned s1 s2 i j : state_turned s1 s2 -> i < q -> j < W -> calm s1 i j ->
  exists s1' s2', ldpc_layer T D BETA C (length (cl i)) i j (bb i j, base T D i j, s1) = Ok (bb i (S j), base T D i (S j), s1') /\
    ldpc_layer T D BETA C (length (cl i)) i j (bb i j, base T D i j, s2) = Ok (bb i (S j), base T D i (S j), s2') /\ state_turned s1' s2'.
Proof.
  intros HR Hi Hj Hc. assert (HR' := HR). destruct HR' as (Sh1 & Sh2 & Ew & Rm & Rp & Rb). pose proof (D_pos T D DOK) as HD.
  destruct (layer_ok T D DOK BETA HB C HS i j s1 Sh1 Hi Hj) as (s1' & E1 & Sh1' & _ & B1 & M1 & P1).
  destruct (layer_ok T D DOK BETA HB C HS i j s2 Sh2 Hi Hj) as (s2' & E2 & Sh2' & _ & B2 & M2 & P2).
  exists s1', s2'. split; [exact E1|]. split; [exact E2|]. rewrite <- Ew in B2, M2. set (w := nth (W * i + j) (ls_wd s1) 0%N) in *.
  split; [exact Sh1'|]. split; [exact Sh2'|]. split; [|split; [|split]].
  - apply layer_rotates in E1, E2. rewrite <- Ew in E2. congruence.
  - intros x m Hx Hm. destruct (M1 x) as (U1 & V1). destruct (M2 x) as (U2 & V2).
    destruct (last_such (fun k => enabled T w i k && (fst (link_at T D C i j k) =? x)) (length (cl i))) as [(k & Hk & Pk & Lk)|Nk].
    + apply andb_prop in Pk. destruct Pk as (Ek & Wk). apply Nat.eqb_eq in Wk. destruct (fs_link i j k 0 Hi Hj HD Hk) as (_ & _ & Bs).
      set (sh := snd (link_at T D C i j k)) in *. set (n := (m + (D - sh)) mod D). assert (n < D) as Hn by (apply Nat.mod_upper_bound; lia).
      assert ((n + sh) mod D = m) as En.
      { unfold n. rewrite Nat.add_mod_idemp_l by lia. replace (m + (D - sh) + sh) with (m + 1 * D) by lia. rewrite Nat.mod_add by lia. apply Nat.mod_small. exact Hm. }
      assert (forall k'', k < k'' -> k'' < length (cl i) + 2 -> k'' < length (cl i) -> enabled T w i k'' = true -> fst (link_at T D C i j k'') <> x) as Lk'.
      { intros k'' A1 A2 A3 A4 A5. specialize (Lk k'' ltac:(lia)). cbv beta in Lk. rewrite A4, A5, Nat.eqb_refl in Lk. discriminate. }
      pose proof (U1 k ltac:(lia) Hk Ek Wk Lk' n Hn) as R1. pose proof (U2 k ltac:(lia) Hk Ek Wk Lk' n Hn) as R2. fold sh in R1, R2. rewrite En in R1, R2. rewrite R1, R2.
      rewrite (result_turned s1 s2 HR i j Hi Hj Hc) by (assumption || lia). f_equal. destruct (fs_link i j k n Hi Hj Hn Hk) as (-> & _ & _). fold sh. rewrite En, Wk. reflexivity.
    + assert (forall k', k' < length (cl i) + 2 -> k' < length (cl i) -> enabled T w i k' = true -> fst (link_at T D C i j k') <> x) as Nk'.
      { intros k' _ A3 A4 A5. specialize (Nk k' A3). cbv beta in Nk. rewrite A4, A5, Nat.eqb_refl in Nk. discriminate. }
      rewrite (V1 Nk'), (V2 Nk'). apply Rm; assumption.
  - intros p Hp. destruct P1 as (_ & O1 & Q1 & K1). destruct P2 as (_ & O2 & Q2 & K2).
    destruct (last_such (fun n => p =? d_pty_at T D i j n) D) as [(n & Hn & Pn & _)|N1].
    + apply Nat.eqb_eq in Pn. subst p. rewrite O1, O2 by (assumption || lia). rewrite (result_turned s1 s2 HR i j Hi Hj Hc) by (assumption || lia). rewrite fs_own by assumption. reflexivity.
    + destruct (last_such (fun n => S p =? d_pty_at T D i j n) D) as [(n & Hn & Pn & _)|N2].
      * apply Nat.eqb_eq in Pn. assert (p = d_pty_at T D i j n - 1) as Ep by lia. assert (d_pty_at T D i j n <> 0) as Np by lia. rewrite Ep. rewrite Q1, Q2 by (assumption || lia).
        rewrite (result_turned s1 s2 HR i j Hi Hj Hc) by (assumption || lia). rewrite fs_prev by assumption. replace (d_pty_at T D i j n =? 0) with false by lia. reflexivity.
      * assert (forall n, n < D -> p <> d_pty_at T D i j n /\ S p <> d_pty_at T D i j n) as N.
        { intros n Hn. specialize (N1 n Hn). specialize (N2 n Hn). cbv beta in N1, N2. lia. }
        rewrite K1, K2 by assumption. apply Rp. exact Hp.
  - intros i' j' k n Hi' Hj' Hk Hn. destruct B1 as (X1 & Y1). destruct B2 as (X2 & Y2).
    destruct (Nat.eq_dec i i') as [<-|Ni]; [destruct (Nat.eq_dec j j') as [<-|Nj]|].
    + rewrite X1, X2 by assumption. destruct (_ && _); [apply (sent_turned s1 s2 HR i j Hi Hj Hc); assumption|apply Rb; assumption].
    + assert (forall k', k' < length (cl i) + 2 -> bb i j' + k <> bb i j + k') as Ny by (intros k' Hk' E; apply bbase_apart in E; [|assumption..]; lia).
      rewrite Y1, Y2 by exact Ny. apply Rb; assumption.
    + assert (forall k', k' < length (cl i) + 2 -> bb i' j' + k <> bb i j + k') as Ny by (intros k' Hk' E; apply bbase_apart in E; [|assumption..]; lia).
      rewrite Y1, Y2 by exact Ny. apply Rb; assumption.
Qed.

(** the states between layers: [seen t i j s] before layer [(i, j)] of iteration [t] *)
Inductive seen (s0 : ldpc_state) : nat -> nat -> nat -> ldpc_state -> Prop :=
| seen_start : seen s0 0 0 0 s0
| seen_layer t i j s x s' : seen s0 t i j s -> i < q -> j < W ->
    ldpc_layer T D BETA C (length (cl i)) i j (bb i j, base T D i j, s) = Ok (x, s') -> seen s0 t i (S j) s'
| seen_row t i s : seen s0 t i W s -> seen s0 t (S i) 0 s
| seen_turn t s : seen s0 t q 0 s -> seen s0 (S t) 0 0 s.

Theorem update_turned s0 t s1 s2 : (forall i j s, i < q -> j < W -> seen s0 t i j s -> calm s i j) -> seen s0 t 0 0 s1 -> state_turned s1 s2 ->
  exists s1' s2', ldpc_update T D BETA C s1 = Ok s1' /\ ldpc_update T D BETA C s2 = Ok s2' /\ state_turned s1' s2' /\ seen s0 (S t) 0 0 s1'.
Proof.
  intros HCalm H0 HR. destruct HC as (Lc & Hc). unfold ldpc_update.
  edestruct (for_up_two (fun i (x y : nat * nat * ldpc_state) => let '(bl, lo, a) := x in let '(bl2, lo2, b) := y in
     bl = bb i 0 /\ lo = base T D i 0 /\ bl2 = bb i 0 /\ lo2 = base T D i 0 /\ state_turned a b /\ seen s0 t i 0 a))
    as ([[bl lo] a] & [[bl2 lo2] b] & E1 & E2 & _ & _ & _ & _ & R & Se).
  4: { rewrite E1, E2. cbn [bind]. exists a, b. split; [reflexivity|]. split; [reflexivity|]. split; [exact R|]. apply seen_turn. exact Se. }
  - lia.
  - cbv beta. intros i [[bl lo] a] [[bl2 lo2] b] Hi (-> & -> & -> & -> & R & Se). rewrite (rd_nth _ _ 0) by lia. cbn [bind]. rewrite Hc by lia.
    edestruct (for_up_two (fun j (x y : nat * nat * ldpc_state) => let '(bl, lo, a) := x in let '(bl2, lo2, b) := y in
      bl = bb i j /\ lo = base T D i j /\ bl2 = bb i j /\ lo2 = base T D i j /\ state_turned a b /\ seen s0 t i j a))
      as ([[bl lo] a'] & [[bl2 lo2] b'] & E1 & E2 & -> & -> & -> & -> & R' & Se').
    4: { rewrite E1, E2. do 2 eexists. split; [reflexivity|]. split; [reflexivity|]. cbv beta iota. rewrite bbase_wrap, base_wrap. do 4 (split; [reflexivity|]). split; [exact R'|]. apply seen_row. exact Se'. }
    + lia.
    + cbv beta. intros j [[bl lo] a1] [[bl2 lo2] b1] Hj (-> & -> & -> & -> & R1 & Se1).
      destruct (layer_turned a1 b1 i j R1 ltac:(lia) ltac:(lia)) as (a2 & b2 & E1 & E2 & R2); [apply HCalm; [lia|lia|exact Se1]|]. rewrite E1, E2.
      do 2 eexists. split; [reflexivity|]. split; [reflexivity|]. cbv beta iota. do 4 (split; [reflexivity|]). split; [exact R2|]. eapply seen_layer; [exact Se1|lia|lia|exact E1].
    + cbv beta iota. auto 10.
  - cbv beta iota. unfold bbase, base, csum. cbn [nsum]. do 4 (split; [lia|]). split; [exact HR|exact H0].
Qed.
End Turn.
