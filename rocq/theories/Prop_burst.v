(** Property C82: interleave.hh with reed_solomon_decoder.hh, bursts of errors and erasures. *)
From Coq Require Import ZifyBool ZifyNat ZifyN.
From Verif Require Import Cpp Model_gf Model_rs Model_perm Spec_gf Spec_rs Lib_list Proof_perm1 Prop_perm Prop_rs.
Local Open Scope nat_scope.

(** [cws] are ORDER codewords of [len] data and NR parity symbols; [rec] is what arrives of [sent] when only the B symbols from [p] on may change *)
Definition codewords (M POLY : N) (NR FCR len : nat) (cws : list (list N)) : Prop := Forall (fun cw => rs_codeword M POLY NR FCR cw /\ length cw = len + NR) cws.
Definition burst (M : N) (p B : nat) (sent rec : list N) : Prop :=
  length rec = length sent /\ Forall (fun x => (x < 2 ^ M)%N) rec /\ forall i, i < length sent -> i < p \/ p + B <= i -> nth i rec 0%N = nth i sent 0%N.
(** the [j]-th word of [n] symbols *)
Definition block (n j : nat) (l : list N) : list N := firstn n (skipn (j * n) l).
(** the symbols of word [j] inside the burst, after interleaving in ORDER words of [n] symbols *)
Definition hit (ORDER n j p B : nat) : list nat := filter (fun i => (p <=? ORDER * i + j) && (ORDER * i + j <? p + B)) (seq 0 n).

Lemma hit_short ORDER n j p B T : 1 <= ORDER -> B <= ORDER * T -> length (hit ORDER n j p B) <= T.
Proof.
  intros H1 H2. set (i0 := (p - j + (ORDER - 1)) / ORDER).
  assert (D := Nat.div_mod (p - j + (ORDER - 1)) ORDER ltac:(lia)). assert (D' := Nat.mod_upper_bound (p - j + (ORDER - 1)) ORDER ltac:(lia)). fold i0 in D.
  rewrite <- (seq_length T i0). apply NoDup_incl_length; [apply NoDup_filter, seq_NoDup|].
  intros i Hi. apply filter_In in Hi. destruct Hi as (_ & Hi). apply andb_prop in Hi. destruct Hi as (A & B'). apply Nat.leb_le in A. apply Nat.ltb_lt in B'. apply in_seq.
  split; apply Nat.nlt_ge || apply Nat.nle_gt; intros X; nia.
Qed.

Lemma length_concat n (cws : list (list N)) : Forall (fun c => length c = n) cws -> length (concat cws) = length cws * n.
Proof. induction 1 as [|c cws Hc _ IH]; [reflexivity|]. cbn [concat length]. rewrite app_length, IH, Hc. reflexivity. Qed.
Lemma block_concat n (cws : list (list N)) : Forall (fun c => length c = n) cws -> forall j, j < length cws -> block n j (concat cws) = nth j cws [].
Proof.
  unfold block. induction 1 as [|c cws Hc F IH]; intros j Hj; cbn [length] in Hj; [lia|]. cbn [concat nth]. destruct j as [|j].
  - cbn [Nat.mul skipn]. rewrite <- Hc, firstn_app, Nat.sub_diag, firstn_all. cbn [firstn]. apply app_nil_r.
  - rewrite <- (IH j) by lia. f_equal. cbn [Nat.mul]. rewrite skipn_app. rewrite (skipn_all2 c) by lia. cbn [Datatypes.app]. f_equal. lia.
Qed.
Lemma block_length n j l k : length l = k * n -> j < k -> length (block n j l) = n.
Proof. intros L H. unfold block. rewrite firstn_length, skipn_length. nia. Qed.
Lemma nth_block n j l i : i < n -> nth i (block n j l) 0%N = nth (i + j * n) l 0%N.
Proof. intros H. unfold block. rewrite nth_firstn', nth_skipn'. replace (i <? n) with true by lia. f_equal. lia. Qed.

(** what a word looks like after transport: it differs from what was sent inside the burst only *)
Lemma transport M p B ORDER n (inp out1 out2 sent rec : list N) : 1 <= ORDER -> 1 <= n -> length inp = n * ORDER -> length out1 = n * ORDER -> length out2 = n * ORDER ->
  interleave (n * ORDER) ORDER out1 inp = Ok sent -> burst M p B sent rec ->
  exists rx, deinterleave (n * ORDER) ORDER out2 rec = Ok rx /\ length rx = n * ORDER /\ Forall (fun x => (x < 2 ^ M)%N) rx /\
    forall i j, i < n -> j < ORDER -> ~ In i (hit ORDER n j p B) -> nth (i + j * n) rx 0%N = nth (i + j * n) inp 0%N.
Proof.
  intros HO Hn L1 L2 L3 EI (R1 & R2 & R3). assert (DV : n * ORDER mod ORDER = 0) by (apply Nat.mod_mul; lia). assert (QU : n * ORDER / ORDER = n) by (apply Nat.div_mul; lia).
  destruct (C13_interleave_positions N (n * ORDER) ORDER out1 inp ltac:(lia) DV L1 L2) as (s' & E' & LS & _ & P). rewrite EI in E'. injection E' as <-. rewrite QU in P.
  destruct (deinterleave_ok (n * ORDER) ORDER ltac:(lia) DV out2 rec ltac:(lia) L3) as (rx & ED & LX & _).
  destruct (C13_interleave_undoes_deinterleave N (n * ORDER) ORDER rec out2 out1 ltac:(lia) DV ltac:(lia) L3 L2) as (m & E1 & E2). rewrite ED in E1. injection E1 as <-.
  destruct (C13_interleave_positions N (n * ORDER) ORDER out1 rx ltac:(lia) DV LX L2) as (s' & E' & _ & PM & P'). rewrite E2 in E'. injection E' as <-. rewrite QU in P'.
  exists rx. split; [exact ED|]. split; [exact LX|]. split; [eapply Permutation.Permutation_Forall; [apply Permutation.Permutation_sym; exact PM|exact R2]|].
  intros i j Hi Hj Hh. specialize (P i j Hi Hj). specialize (P' i j Hi Hj).
  assert (NB : ORDER * i + j < p \/ p + B <= ORDER * i + j).
  { destruct (Nat.lt_ge_cases (ORDER * i + j) p); [auto|]. destruct (Nat.lt_ge_cases (ORDER * i + j) (p + B)); [|auto]. exfalso. apply Hh. unfold hit. apply filter_In. split; [apply in_seq; lia|].
    apply andb_true_intro. split; [apply Nat.leb_le|apply Nat.ltb_lt]; assumption. }
  assert (A1 : i + j * n < n * ORDER) by nia. assert (A2 : ORDER * i + j < n * ORDER) by nia.
  apply nth_error_nth with (d := 0%N). rewrite <- P'. rewrite (nth_error_nth' rec 0%N) by lia. f_equal. rewrite R3 by (lia || assumption).
  apply nth_error_nth. rewrite P. apply nth_error_nth'. lia.
Qed.

Lemma Forall_firstn' {A} (P : A -> Prop) n l : Forall P l -> Forall P (firstn n l).
Proof. intros H. rewrite <- (firstn_skipn n l) in H. apply Forall_app in H. tauto. Qed.
Lemma Forall_skipn' {A} (P : A -> Prop) n l : Forall P l -> Forall P (skipn n l).
Proof. intros H. rewrite <- (firstn_skipn n l) in H. apply Forall_app in H. tauto. Qed.
Lemma filter_length_le {A} (f : A -> bool) l : length (filter f l) <= length l.
Proof. induction l as [|x l IH]; cbn [filter]; [lia|]. destruct (f x); cbn [length]; lia. Qed.
Lemma differing_hit ORDER n j p B (u v : list N) : length u = n -> (forall i, i < n -> ~ In i (hit ORDER n j p B) -> nth i v 0%N = nth i u 0%N) -> incl (differing u v) (hit ORDER n j p B).
Proof.
  intros L H i Hi. unfold differing in Hi. apply filter_In in Hi. destruct Hi as (A & C). apply in_seq in A. destruct (in_dec Nat.eq_dec i (hit ORDER n j p B)) as [Y|Y]; [exact Y|].
  exfalso. rewrite H in C by (lia || assumption). rewrite N.eqb_refl in C. discriminate.
Qed.

(** one word after transport, with the erasures [er] *)
Lemma recovered w M POLY G NR FCR imap len : rs_params w M POLY G NR FCR -> rs_imap G = Ok imap -> ~ solvable M POLY -> 1 <= len -> (N.of_nat (len + NR) <= 2 ^ M - 1)%N ->
  forall cw blk er count, rs_codeword M POLY NR FCR cw -> length cw = len + NR -> length blk = len + NR -> Forall (fun x => (x < 2 ^ M)%N) blk ->
  count <= NR -> count <= length er -> Forall (fun e => (e < N.of_nat (len + NR))%N) (firstn count er) -> NoDup (firstn count er) ->
  2 * length (errors_outside (firstn count er) cw blk) + count <= NR ->
  exists er', rs_decode G NR FCR imap (firstn len blk) (skipn len blk) er count len = Ok (firstn len cw, skipn len cw, er', Z.of_nat (length (differing cw blk))).
Proof.
  intros HP HI NS Hl HK cw blk er count CW LC LB FB C1 C2 C3 ND HE.
  assert (FA : Forall (fun x => (x < 2 ^ M)%N) (firstn len blk) /\ Forall (fun x => (x < 2 ^ M)%N) (skipn len blk)) by (rewrite <- (firstn_skipn len blk) in FB; apply Forall_app in FB; exact FB).
  assert (L1 : length (firstn len blk) = len) by (rewrite firstn_length; lia).
  assert (BU : rs_buffers M NR len (firstn len blk) (skipn len blk) er count).
  { destruct FA. split; [assumption|]. split; [assumption|]. split; [rewrite skipn_length; lia|]. split; [exact Hl|]. split; [exact HK|]. split; [lia|]. split; [exact C1|]. split; [exact C2|exact C3]. }
  assert (RW : firstn len (firstn len blk) ++ skipn len blk = blk) by (rewrite firstn_firstn, Nat.min_id, firstn_skipn; reflexivity).
  destruct (C33_no_exception w M POLY G NR FCR imap HP HI NS len _ _ er count cw BU ND CW LC) as (d' & p' & er' & E & Ew & Es); [rewrite RW; exact HE|]. rewrite RW in E.
  rewrite (skipn_all2 (firstn len blk)) in Es by lia.
  destruct (C34_total_and_failure_changes_nothing w M POLY G NR FCR HP) as (imap' & HI' & T). rewrite HI in HI'. injection HI' as <-.
  destruct (T len _ _ er count BU) as (d2 & p2 & er2 & z & E2 & LD & _). rewrite E in E2. injection E2 as <- <- <- <-. rewrite L1 in LD.
  rewrite firstn_all2 in Ew by lia.
  assert (A1 : firstn len cw = d') by (rewrite <- Ew, firstn_app, LD, Nat.sub_diag, firstn_all2 by lia; apply app_nil_r).
  assert (A2 : skipn len cw = p') by (rewrite <- Ew, skipn_app, LD, Nat.sub_diag, skipn_all2 by lia; reflexivity).
  exists er'. rewrite E, A1, A2. reflexivity.
Qed.

(** ORDER codewords, interleaved, a burst of at most ORDER * (NR / 2) symbols, deinterleaved: the decoder repairs every word *)
Theorem C82_burst_of_errors : forall w M POLY G NR FCR imap len ORDER cws out1 out2, rs_params w M POLY G NR FCR -> rs_imap G = Ok imap -> ~ solvable M POLY ->
  1 <= len -> (N.of_nat (len + NR) <= 2 ^ M - 1)%N -> codewords M POLY NR FCR len cws -> 1 <= ORDER -> length cws = ORDER ->
  let n := len + NR in
  length out1 = n * ORDER -> length out2 = n * ORDER ->
  exists sent, interleave (n * ORDER) ORDER out1 (concat cws) = Ok sent /\
  forall p B rec, B <= ORDER * (NR / 2) -> burst M p B sent rec ->
  exists rx, deinterleave (n * ORDER) ORDER out2 rec = Ok rx /\ length rx = n * ORDER /\
  forall j er, j < ORDER -> let cw := nth j cws [] in let blk := block n j rx in
  exists er', rs_decode G NR FCR imap (firstn len blk) (skipn len blk) er 0 len = Ok (firstn len cw, skipn len cw, er', Z.of_nat (length (differing cw blk))).
Proof.
  intros w M POLY G NR FCR imap len ORDER cws out1 out2 HP HI NS Hl HK CW HO LO n L1 L2. set (inp := concat cws).
  assert (LI : length inp = n * ORDER). { unfold inp. rewrite (length_concat n); [rewrite LO; lia|]. eapply Forall_impl; [|exact CW]. intros a (_ & A). exact A. }
  destruct (interleave_ok (n * ORDER) ORDER ltac:(lia) ltac:(apply Nat.mod_mul; lia) out1 inp LI L1) as (sent & EI & _). exists sent. split; [exact EI|].
  intros p B rec HB HC. destruct (transport M p B ORDER n inp out1 out2 sent rec HO ltac:(lia) LI L1 L2 EI HC) as (rx & ED & LX & FX & PX).
  exists rx. split; [exact ED|]. split; [exact LX|]. intros j er Hj cw blk.
  assert (CJ : rs_codeword M POLY NR FCR cw /\ length cw = n) by (unfold codewords in CW; rewrite Forall_forall in CW; apply CW, nth_In; lia). destruct CJ as (CJ & LJ).
  assert (BC : block n j inp = cw). { apply block_concat; [|lia]. eapply Forall_impl; [|exact CW]. intros a (_ & A). exact A. }
  apply (recovered w M POLY G NR FCR imap len HP HI NS Hl HK cw blk er 0 CJ LJ).
  - apply block_length with (k := ORDER); [lia|exact Hj].
  - unfold blk, block. apply Forall_firstn', Forall_skipn'. exact FX.
  - lia.
  - lia.
  - constructor.
  - constructor.
  - cbn [firstn]. assert (Hs := hit_short ORDER n j p B (NR / 2) HO HB).
    assert (length (errors_outside [] cw blk) <= length (differing cw blk)) by apply filter_length_le.
    assert (length (differing cw blk) <= length (hit ORDER n j p B)).
    { apply NoDup_incl_length; [apply NoDup_filter, seq_NoDup|]. apply differing_hit; [exact LJ|]. intros i Hi Hh. rewrite <- BC. unfold blk. rewrite !nth_block by exact Hi. apply PX; assumption. }
    assert (2 * (NR / 2) <= NR) by (apply Nat.mul_div_le; lia). lia.
Qed.
Print Assumptions C82_burst_of_errors.

(** A burst whose place is known may be twice as long: the symbols inside it are declared as erasures *)
Theorem C82_burst_of_erasures : forall w M POLY G NR FCR imap len ORDER cws out1 out2, rs_params w M POLY G NR FCR -> rs_imap G = Ok imap -> ~ solvable M POLY ->
  1 <= len -> (N.of_nat (len + NR) <= 2 ^ M - 1)%N -> codewords M POLY NR FCR len cws -> 1 <= ORDER -> length cws = ORDER ->
  let n := len + NR in
  length out1 = n * ORDER -> length out2 = n * ORDER ->
  exists sent, interleave (n * ORDER) ORDER out1 (concat cws) = Ok sent /\
  forall p B rec, B <= ORDER * NR -> burst M p B sent rec ->
  exists rx, deinterleave (n * ORDER) ORDER out2 rec = Ok rx /\ length rx = n * ORDER /\
  forall j, j < ORDER -> let cw := nth j cws [] in let blk := block n j rx in let er := map N.of_nat (hit ORDER n j p B) in
  exists er', rs_decode G NR FCR imap (firstn len blk) (skipn len blk) er (length er) len = Ok (firstn len cw, skipn len cw, er', Z.of_nat (length (differing cw blk))).
Proof.
  intros w M POLY G NR FCR imap len ORDER cws out1 out2 HP HI NS Hl HK CW HO LO n L1 L2. set (inp := concat cws).
  assert (LI : length inp = n * ORDER). { unfold inp. rewrite (length_concat n); [rewrite LO; lia|]. eapply Forall_impl; [|exact CW]. intros a (_ & A). exact A. }
  destruct (interleave_ok (n * ORDER) ORDER ltac:(lia) ltac:(apply Nat.mod_mul; lia) out1 inp LI L1) as (sent & EI & _). exists sent. split; [exact EI|].
  intros p B rec HB HC. destruct (transport M p B ORDER n inp out1 out2 sent rec HO ltac:(lia) LI L1 L2 EI HC) as (rx & ED & LX & FX & PX).
  exists rx. split; [exact ED|]. split; [exact LX|]. intros j Hj cw blk er.
  assert (CJ : rs_codeword M POLY NR FCR cw /\ length cw = n) by (unfold codewords in CW; rewrite Forall_forall in CW; apply CW, nth_In; lia). destruct CJ as (CJ & LJ).
  assert (BC : block n j inp = cw). { apply block_concat; [|lia]. eapply Forall_impl; [|exact CW]. intros a (_ & A). exact A. }
  assert (Hs := hit_short ORDER n j p B NR HO HB). assert (LE : length er = length (hit ORDER n j p B)) by apply map_length.
  assert (ID : incl (differing cw blk) (hit ORDER n j p B)).
  { apply differing_hit; [exact LJ|]. intros i Hi Hh. rewrite <- BC. unfold blk. rewrite !nth_block by exact Hi. apply PX; assumption. }
  apply (recovered w M POLY G NR FCR imap len HP HI NS Hl HK cw blk er (length er) CJ LJ).
  - apply block_length with (k := ORDER); [lia|exact Hj].
  - unfold blk, block. apply Forall_firstn', Forall_skipn'. exact FX.
  - lia.
  - lia.
  - rewrite firstn_all. unfold er. rewrite Forall_forall. intros x Hx. apply in_map_iff in Hx. destruct Hx as (i & <- & Hi). apply filter_In in Hi. destruct Hi as (Hi & _). apply in_seq in Hi. fold n. lia.
  - rewrite firstn_all. unfold er. apply FinFun.Injective_map_NoDup; [intros a b; lia|]. apply NoDup_filter, seq_NoDup.
  - rewrite firstn_all. replace (errors_outside er cw blk) with (@nil nat); [cbn [length]; lia|]. symmetry. unfold errors_outside.
    assert (A : forall i, In i (differing cw blk) -> negb (existsb (N.eqb (N.of_nat i)) er) = false).
    { intros i Hi. apply negb_false_iff, existsb_exists. exists (N.of_nat i). split; [unfold er; apply in_map, ID; exact Hi|apply N.eqb_refl]. }
    revert A. generalize (differing cw blk). clear. intros l A. induction l as [|x l IH]; [reflexivity|]. cbn [filter]. rewrite A by (left; reflexivity). apply IH. intros i Hi. apply A. right. exact Hi.
Qed.
Print Assumptions C82_burst_of_erasures.

(** GF(16), three words of three data and four parity symbols, a burst of six symbols in the 21 sent *)
Example C82_nonvacuous : exists gen imap p0 p1 p2, rs_params 8 4 19 gf16 4 1 /\ rs_generator gf16 4 1 = Ok gen /\ rs_imap gf16 = Ok imap /\
  rs_encode gf16 4 gen [5; 0; 11]%N [0; 0; 0; 0]%N 3 = Ok p0 /\ rs_encode gf16 4 gen [1; 2; 3]%N [0; 0; 0; 0]%N 3 = Ok p1 /\ rs_encode gf16 4 gen [15; 0; 8]%N [0; 0; 0; 0]%N 3 = Ok p2 /\
  let cws := [[5; 0; 11]%N ++ p0; [1; 2; 3]%N ++ p1; [15; 0; 8]%N ++ p2] in
  codewords 4 19 4 1 3 cws /\ ~ solvable 4 19 /\
  exists sent, interleave 21 3 (repeat 0%N 21) (concat cws) = Ok sent /\
  let rec := firstn 4 sent ++ [1; 2; 3; 4; 5; 6]%N ++ skipn 10 sent in burst 4 4 6 sent rec /\ length (differing sent rec) = 6 /\
  exists rx, deinterleave 21 3 (repeat 0%N 21) rec = Ok rx /\
  exists e, rs_decode gf16 4 1 imap (firstn 3 (block 7 1 rx)) (skipn 3 (block 7 1 rx)) [] 0 3 = Ok ([1; 2; 3]%N, p1, e, 2%Z).
Proof.
  eexists _, _, _, _, _. split; [rs_par|]. do 5 (split; [vm_compute; reflexivity|]). cbv zeta. split.
  { repeat (constructor; [split; [apply codeword_check_iff; [lia|split; vm_compute; congruence|vm_compute; reflexivity]|reflexivity]|]). constructor. }
  split; [exact C33_gf16_no_exception|].
  eexists. split; [vm_compute; reflexivity|]. split.
  { split; [reflexivity|]. split; [cbn; repeat (constructor; try (vm_compute; reflexivity))|]. intros i Hi Hb. cbn [length] in Hi. cbn [firstn skipn Datatypes.app].
    do 21 (destruct i as [|i]; [try reflexivity; exfalso; lia|]). exfalso. cbn in Hi. lia. }
  split; [vm_compute; reflexivity|]. eexists. split; [vm_compute; reflexivity|]. eexists. vm_compute. reflexivity.
Qed.
