(** Proofs about the table tests/sequence.h. *)
From Coq Require Import ZifyBool ZifyNat ZifyN Permutation.
From Verif Require Import Cpp Model_polar_table Spec_polar Lib_list Proof_bits Proof_polar2 Proof_pconst1.
Local Open Scope nat_scope.
Ltac Zify.zify_post_hook ::= idtac.

(** the place of each position in the table *)
Fixpoint find_at (x : Z) (l : list Z) (n : Z) : Z := match l with [] => n | y :: l => if (x =? y)%Z then n else find_at x l (n + 1)%Z end.
Definition places : list Z := Eval vm_compute in map (fun j => find_at (Z.of_nat j) sequence 0%Z) (seq 0 1024).
Definition place (j : nat) : nat := Z.to_nat (nth j places 0%Z).
Definition entry (i : nat) : nat := Z.to_nat (nth i sequence 0%Z).

Lemma all_lt (P : nat -> bool) n : forallb P (seq 0 n) = true -> forall i, i < n -> P i = true.
Proof. intros H i Hi. rewrite forallb_forall in H. apply H, in_seq. lia. Qed.
Lemma length_sequence : length sequence = 1024. Proof. vm_compute. reflexivity. Qed.
Lemma entry_lt i : i < 1024 -> entry i < 1024 /\ (0 <= nth i sequence 0)%Z.
Proof.
  assert (H : forallb (fun i => (entry i <? 1024) && (0 <=? nth i sequence 0)%Z) (seq 0 1024) = true) by (vm_compute; reflexivity).
  intros Hi. assert (X := all_lt _ _ H i Hi). cbv beta in X. lia.
Qed.
Lemma place_entry i : i < 1024 -> place (entry i) = i.
Proof.
  assert (H : forallb (fun i => place (entry i) =? i) (seq 0 1024) = true) by (vm_compute; reflexivity).
  intros Hi. assert (X := all_lt _ _ H i Hi). cbv beta in X. lia.
Qed.
Lemma entry_place j : j < 1024 -> entry (place j) = j /\ place j < 1024.
Proof.
  assert (H : forallb (fun j => (entry (place j) =? j) && (place j <? 1024)) (seq 0 1024) = true) by (vm_compute; reflexivity).
  intros Hi. assert (X := all_lt _ _ H j Hi). cbv beta in X. lia.
Qed.
Lemma last_place : place 1023 = 1023. Proof. vm_compute. reflexivity. Qed.
(** clearing a bit of a position gives an earlier one in the table, except among the first 26 entries *)
Lemma edge j b : j < 1024 -> b < 10 -> Nat.testbit j b = true -> place (j - 2 ^ b) < place j \/ place (j - 2 ^ b) < 26.
Proof.
  assert (H : forallb (fun j => forallb (fun b => negb (Nat.testbit j b) || (place (j - 2 ^ b) <? place j) || (place (j - 2 ^ b) <? 26)) (seq 0 10)) (seq 0 1024) = true) by (vm_compute; reflexivity).
  intros Hj Hb T. assert (X := all_lt _ _ H j Hj). cbv beta in X. assert (Y := all_lt _ _ X b Hb). cbv beta in Y. rewrite T in Y. lia.
Qed.

(** freezing the first entries *)
Lemma or_ok bits idx : idx < 32 * length bits -> exists bits',
  (w <- rd bits (idx / 32) ;; wr bits (idx / 32) (N.lor w (N.shiftl 1 (N.of_nat (idx mod 32))))) = Ok bits' /\ put_flag bits bits' idx true /\ (32 * 32 <= 32 * length bits -> idx < 1024 -> skipn 32 bits' = skipn 32 bits).
Proof.
  intros Hi. assert (idx / 32 < length bits) as Hq by (apply Nat.div_lt_upper_bound; lia).
  rewrite (rd_nth _ _ 0%N) by exact Hq. cbn [bind]. rewrite wr_Ok by exact Hq. eexists. split; [reflexivity|]. split.
  - apply flag_word; [exact Hi|]. intros k. rewrite N.lor_spec. destruct (N.eqb_spec k (N.of_nat (idx mod 32))) as [-> | Hne].
    + rewrite N.shiftl_spec_high' by lia. rewrite N.sub_diag. apply orb_true_r.
    + destruct (N.leb_spec (N.of_nat (idx mod 32)) k).
      * rewrite N.shiftl_spec_high' by lia. replace (N.testbit 1 (k - N.of_nat (idx mod 32))) with false; [apply orb_false_r|]. symmetry. apply N.bits_above_log2. change (N.log2 1) with 0%N. lia.
      * rewrite N.shiftl_spec_low by lia. apply orb_false_r.
  - intros HL Hx. apply list_ext with (d := 0%N); [rewrite !skipn_length, length_upd; reflexivity|]. intros k Hk. rewrite !nth_skipn'. apply nth_upd_neq. assert (idx / 32 < 32) by (apply Nat.div_lt_upper_bound; lia). lia.
Qed.
Lemma clear_words frozen : 32 <= length frozen -> for_up 0 (1024 / 32) (fun i frozen => wr frozen i 0%N) frozen = Ok (repeat 0%N 32 ++ skipn 32 frozen).
Proof.
  intros H. change (1024 / 32) with 32. assert (E : forall n, n <= 32 -> for_up 0 n (fun i frozen => wr frozen i 0%N) frozen = Ok (repeat 0%N n ++ skipn n frozen)).
  { induction n as [|n IH]; intros Hn; [reflexivity|]. rewrite for_up_last by lia. rewrite IH by lia. cbn [bind]. rewrite wr_Ok by (rewrite app_length, repeat_length, skipn_length; lia). f_equal.
    apply list_ext with (d := 0%N); [rewrite length_upd, !app_length, !repeat_length, !skipn_length; lia|]. intros k Hk.
    destruct (Nat.eq_dec k n) as [->|Hne].
    - rewrite nth_upd_eq by (rewrite app_length, repeat_length, skipn_length; lia). rewrite app_nth1 by (rewrite repeat_length; lia). symmetry. apply nth_repeat.
    - rewrite nth_upd_neq by lia. destruct (Nat.ltb_spec k n).
      + rewrite !app_nth1 by (rewrite repeat_length; lia). rewrite !nth_repeat. reflexivity.
      + rewrite !app_nth2 by (rewrite repeat_length; lia). rewrite !repeat_length, !nth_skipn'. f_equal. lia. }
  apply E. lia.
Qed.
Lemma frozen_clear rest j : j < 1024 -> is_frozen (repeat 0%N 32 ++ rest) j = false.
Proof. intros H. unfold is_frozen. rewrite app_nth1 by (rewrite repeat_length; apply Nat.div_lt_upper_bound; lia). rewrite nth_repeat. reflexivity. Qed.

Lemma freeze_ok frozen n : 32 <= length frozen -> n <= 1024 -> exists f, freeze_sequence frozen n = Ok f /\ length f = length frozen /\ skipn 32 f = skipn 32 frozen /\
  (Forall (fun w => w < 2 ^ 32)%N frozen -> Forall (fun w => w < 2 ^ 32)%N f) /\ forall j, j < 1024 -> is_frozen f j = (place j <? n).
Proof.
  intros HL Hn. unfold freeze_sequence. rewrite clear_words by exact HL. cbn [bind]. set (f0 := repeat 0%N 32 ++ skipn 32 frozen).
  assert (L0 : length f0 = length frozen) by (unfold f0; rewrite app_length, repeat_length, skipn_length; lia).
  assert (S0 : skipn 32 f0 = skipn 32 frozen) by (unfold f0; rewrite skipn_app, skipn_all2 by (rewrite repeat_length; lia); rewrite repeat_length; reflexivity).
  assert (W0 : Forall (fun w => w < 2 ^ 32)%N frozen -> words f0).
  { intros F. apply Forall_app. split; [apply Forall_forall; intros x Hx; apply repeat_spec in Hx; subst x; reflexivity|]. rewrite <- (firstn_skipn 32 frozen) in F. apply Forall_app in F. apply F. }
  assert (Z0 : forall j, j < 1024 -> is_frozen f0 j = false) by (intros; apply frozen_clear; assumption). clearbody f0.
  induction n as [|n IH]; [exists f0; split; [reflexivity|]; split; [exact L0|]; split; [exact S0|]; split; [exact W0|]; intros j Hj; rewrite Z0 by exact Hj; reflexivity|].
  destruct IH as (f & E & L & S & W & F); [lia|]. rewrite for_up_last by lia. rewrite E. cbn [bind]. rewrite (rd_nth _ _ 0%Z) by (rewrite length_sequence; lia). cbn [bind]. change (Z.to_nat (nth n sequence 0%Z)) with (entry n).
  destruct (entry_lt n ltac:(lia)) as (EL & _). destruct (or_ok f (entry n) ltac:(lia)) as (f' & E' & (L' & W' & F') & S'). cbv zeta. rewrite E'. exists f'. split; [reflexivity|]. split; [lia|]. split; [rewrite S' by lia; exact S|].
  split; [intros X; apply W', W, X|]. intros j Hj. rewrite F', F by exact Hj. destruct (Nat.eqb_spec j (entry n)) as [->|Hne].
  - rewrite place_entry by lia. lia.
  - destruct (entry_place j Hj) as (P1 & P2). assert (place j <> n) by (intros X; apply Hne; rewrite <- P1, X; reflexivity). lia.
Qed.
