(** Property C92: ldpc_decoder.hh, decoding does not depend on the codeword that was sent as long as nothing saturates. *)
From Coq Require Import ZifyBool Permutation.
From Verif Require Import Cpp Model_simd Model_ldpc Spec_ldpc Spec_ldpc_turn Lib_list Proof_bits Proof_simd Proof_ldpc3 Proof_ldpc5 Proof_ldpc9 Proof_ldpc12 Proof_ldpc13 Prop_ldpc.
Local Open Scope nat_scope.
Ltac Zify.zify_post_hook ::= idtac.

Lemma product_length a b : length a = length b -> length (product a b) = length b.
Proof. intros L. unfold product. rewrite map_length, combine_length. lia. Qed.
Lemma product_nth a b p : length a = length b -> p < length b -> nth p (product a b) 0%Z = (nth p a 0 * nth p b 0)%Z.
Proof.
  intros L Hp. unfold product. rewrite (nth_map1 _ _ _ (0, 0)%Z) by (rewrite combine_length; lia). rewrite combine_nth by exact L. reflexivity.
Qed.
Lemma product_turned a b : length a = length b -> turned_by a b (product a b).
Proof. intros L. split; [apply product_length; exact L|]. intros p Hp. apply product_nth; assumption. Qed.
Lemma turned_times_eq a x y : length a = length x -> turned_by a x y -> y = product a x.
Proof.
  intros L (Ly & H). apply (list_ext _ _ 0%Z); [rewrite product_length by exact L; exact Ly|]. intros p Hp. rewrite Ly in Hp. rewrite H, product_nth by assumption. reflexivity.
Qed.

(** C92: let decoding the values [m1], [p1] saturate nowhere.  Turn them by the signs of any codeword: decoding the
    turned values (with any object having the same write masks) gives the turned output and the same result. *)
Theorem C92_errors_do_not_depend_on_the_codeword : forall T D BETA srt, decoder_ok T D -> (0 <= BETA <= 255)%Z ->
  (forall l, Permutation (srt l) l) -> 1 < d_W T D * t_q T ->
  exists C wd, ldpc_decoder T D srt = Ok (C, wd) /\
  forall o1 o2 s0 cdata cparity m1 p1 trials,
    object_ok T D o1 -> object_ok T D o2 -> ls_wd o1 = ls_wd o2 -> codeword T cdata cparity ->
    length m1 = t_K T -> length p1 = t_R T -> Forall int8 m1 -> Forall int8 p1 ->
    Forall int8 (product cdata m1) -> Forall int8 (product cparity p1) -> (- 2147483648 < trials <= 2147483647)%Z ->
    loaded T D (ls_wd o1) m1 p1 s0 -> never_saturates T D BETA C s0 (Z.to_nat trials) ->
  exists o1' o2' m' p' r,
    ldpc_decode T D BETA C o1 m1 p1 trials = Ok (o1', m', p', r) /\ length m' = t_K T /\ length p' = t_R T /\
    ldpc_decode T D BETA C o2 (product cdata m1) (product cparity p1) trials = Ok (o2', product cdata m', product cparity p', r).
Proof.
  intros T D BETA srt DOK HB Hsrt HWq. destruct (decoder_ctor T D DOK srt Hsrt) as (C & wd & E & HC & HS & _). exists C, wd. split; [exact E|].
  intros o1 o2 s0 cd cp m1 p1 trials O1 O2 Ew (Lcd & Lcp & Fcd & Fcp & Sat) Lm Lp Fm Fp Fm2 Fp2 Ht (OS & A1 & A2 & A3 & A4) HN.
  apply shaped_object in O1, O2, OS.
  destruct (decode_turned T D DOK BETA HB C HC HS HWq s0 o1 o2 cd cp m1 p1 (product cd m1) (product cp p1) trials) as (o1' & o2' & m' & p' & m2' & p2' & r & E1 & E2 & _ & Lm' & Lp' & T1 & T2);
    try assumption; [apply product_turned; congruence|apply product_turned; congruence|split; [exact OS|]; split; [exact A1|]; split; [exact A2|]; split; [exact A3|exact A4]|].
  exists o1', o2', m', p', r. split; [exact E1|]. split; [exact Lm'|]. split; [exact Lp'|]. rewrite E2.
  rewrite (turned_times_eq cd m' m2' (eq_trans Lcd (eq_sym Lm')) T1), (turned_times_eq cp p' p2' (eq_trans Lcp (eq_sym Lp')) T2). reflexivity.
Qed.
Print Assumptions C92_errors_do_not_depend_on_the_codeword.

(** C92: whichever codeword is sent, the same noise leads to the same wrong bits and the same result *)
Theorem C92_same_wrong_bits_for_all_codewords : forall T D BETA srt, decoder_ok T D -> (0 <= BETA <= 255)%Z ->
  (forall l, Permutation (srt l) l) -> 1 < d_W T D * t_q T ->
  exists C wd, ldpc_decoder T D srt = Ok (C, wd) /\
  forall o1 o2 s0 data1 parity1 data2 parity2 m p trials,
    object_ok T D o1 -> object_ok T D o2 -> ls_wd o1 = ls_wd o2 -> codeword T data1 parity1 -> codeword T data2 parity2 ->
    length m = t_K T -> length p = t_R T -> Forall (fun x => -127 <= x <= 127)%Z m -> Forall (fun x => -127 <= x <= 127)%Z p ->
    (- 2147483648 < trials <= 2147483647)%Z ->
    loaded T D (ls_wd o1) m p s0 -> never_saturates T D BETA C s0 (Z.to_nat trials) ->
  exists o1' o2' m1 p1 m2 p2 r,
    ldpc_decode T D BETA C o1 (product data1 m) (product parity1 p) trials = Ok (o1', m1, p1, r) /\
    ldpc_decode T D BETA C o2 (product data2 m) (product parity2 p) trials = Ok (o2', m2, p2, r) /\
    (forall i, i < t_K T -> Z.sgn (nth i m1 0%Z) = nth i data1 0%Z <-> Z.sgn (nth i m2 0%Z) = nth i data2 0%Z) /\
    (forall i, i < t_R T -> Z.sgn (nth i p1 0%Z) = nth i parity1 0%Z <-> Z.sgn (nth i p2 0%Z) = nth i parity2 0%Z).
Proof.
  intros T D BETA srt DOK HB Hsrt HWq. destruct (C92_errors_do_not_depend_on_the_codeword T D BETA srt DOK HB Hsrt HWq) as (C & wd & E & H). exists C, wd. split; [exact E|].
  intros o1 o2 s0 d1 q1 d2 q2 m p trials O1 O2 Ew CW1 CW2 Lm Lp Fm Fp Ht HL HN.
  assert (forall l, Forall (fun x => -127 <= x <= 127)%Z l -> Forall int8 l) as I8 by (intros l F; eapply Forall_impl; [|exact F]; unfold int8; intros; lia).
  assert (forall c l, length c = length l -> Forall (fun x => x = 1%Z \/ x = (-1)%Z) c -> Forall (fun x => -127 <= x <= 127)%Z l -> Forall int8 (product c l)) as I8p.
  { intros c l L F1 F2. apply Forall_forall. intros x Hx. apply in_map_iff in Hx. destruct Hx as ((a & b) & <- & Hx). cbn [fst snd].
    rewrite Forall_forall in F1, F2. specialize (F1 a (in_combine_l _ _ _ _ Hx)). specialize (F2 b (in_combine_r _ _ _ _ Hx)). unfold int8. destruct F1 as [-> | ->]; lia. }
  assert (forall c l n, length c = length l -> Forall (fun x => x = 1%Z \/ x = (-1)%Z) c -> n < length l -> Z.sgn (nth n (product c l) 0%Z) = nth n c 0%Z <-> Z.sgn (nth n l 0%Z) = 1%Z) as SG.
  { intros c l n L F Hn. rewrite product_nth by assumption. rewrite Forall_forall in F. assert (nth n c 0%Z = 1%Z \/ nth n c 0%Z = (-1)%Z) as S by (apply F, nth_In; lia). destruct S as [-> | ->]; lia. }
  assert (CW1' := CW1). assert (CW2' := CW2). destruct CW1' as (L1 & K1 & F1 & G1 & _). destruct CW2' as (L2 & K2 & F2 & G2 & _).
  destruct (H o1 o1 s0 d1 q1 m p trials) as (oa & ob & a & b & r & E1 & La & Lb & E2); try assumption; [reflexivity|apply I8; assumption|apply I8; assumption|apply I8p; [congruence|assumption..]|apply I8p; [congruence|assumption..]|].
  destruct (H o1 o2 s0 d2 q2 m p trials) as (oc & od & a' & b' & r' & E1' & _ & _ & E2'); try assumption; [apply I8; assumption|apply I8; assumption|apply I8p; [congruence|assumption..]|apply I8p; [congruence|assumption..]|].
  rewrite E1 in E1'. injection E1' as <- <- <- <-. exists ob, od, (product d1 a), (product q1 b), (product d2 a), (product q2 b), r. split; [exact E2|]. split; [exact E2'|]. split.
  - intros i Hi. rewrite (SG d1 a i), (SG d2 a i) by (assumption || lia). tauto.
  - intros i Hi. rewrite (SG q1 b i), (SG q2 b i) by (assumption || lia). tauto.
Qed.
Print Assumptions C92_same_wrong_bits_for_all_codewords.

(** the hypotheses hold for a codeword of [table1] and values with errors *)
Definition data1 : list Z := [1; -1; 1; 1; -1; -1; 1; -1]%Z.
Definition parity1 : list Z := [-1; -1; 1; -1; 1; 1; -1; 1]%Z.
Definition start1 : ldpc_state := mk_ls (repeat [0; 0]%Z 16) [[20; 5]; [-3; 7]; [9; 2]; [9; 30]]%Z [[10; 10]; [10; 10]; [10; 10]; [10; 10]]%Z [0; 0; 0; 0]%N.
Example C92_nonvacuous : exists C, ldpc_decoder table1 2 sort_words = Ok (C, [0; 0; 0; 0]%N) /\ 1 < d_W table1 2 * t_q table1 /\
  codeword table1 data1 parity1 /\
  loaded table1 2 [0; 0; 0; 0]%N [20; -3; 5; 7; 9; 9; 2; 30]%Z (repeat 10%Z 8) start1 /\ never_saturates table1 2 1 C start1 1 /\
  (exists s, ldpc_decode table1 2 1 C blank1 [20; -3; 5; 7; 9; 9; 2; 30]%Z (repeat 10%Z 8) 1
    = Ok (s, [36; 11; 23; 15; 14; 27; 8; 42]%Z, [18; 9; 22; 22; 13; 15; 25; 23]%Z, 0%Z)) /\
  (exists s, ldpc_decode table1 2 1 C blank1 [20; 3; 5; 7; -9; -9; 2; -30]%Z [-10; -10; 10; -10; 10; 10; -10; 10]%Z 1
    = Ok (s, [36; -11; 23; 15; -14; -27; 8; -42]%Z, [-18; -9; 22; -22; 13; 15; -25; 23]%Z, 0%Z)).
Proof.
  eexists. split; [vm_compute; reflexivity|]. split; [vm_compute; lia|]. split; [|split; [|split; [|split; eexists; vm_compute; reflexivity]]].
  - split; [reflexivity|]. split; [reflexivity|]. split; [repeat constructor; (left; reflexivity) || (right; reflexivity)|]. split; [repeat constructor; (left; reflexivity) || (right; reflexivity)|].
    intros p Hp. change (t_R table1) with 8 in Hp. do 8 (destruct p as [|p]; [vm_compute; reflexivity|]). lia.
  - split; [|split; [vm_compute; reflexivity|]; split; [vm_compute; reflexivity|]; split; [|reflexivity]].
    + constructor; [split; [reflexivity|]|split; [reflexivity|]|split; [reflexivity|]|reflexivity]; repeat constructor; unfold int8; lia.
    + intros y n. unfold lane, start1. cbn [ls_bnl repeat]. do 17 (destruct y as [|y]; [destruct n as [|[|[|n]]]; reflexivity|]). destruct y, n; reflexivity.
  - intros m s Hm _ Hs k n Hk Hn. change (1 * (t_q table1 * d_W table1 2)) with 4 in Hm.
    destruct m as [|[|[|[|m]]]]; [| | | |lia]; vm_compute in Hs; injection Hs as <-;
      match type of Hk with ?a < ?b => change (k < 4) in Hk end;
      (destruct k as [|[|[|[|k]]]]; [| | | |lia]); (destruct n as [|[|n]]; [| |lia]); unfold link_unsaturated;
      first [left; split; vm_compute; reflexivity | right; vm_compute; repeat split; discriminate].
Qed.

(** When something saturates it does depend on the codeword: -128 has no counterpart. *)
Example C92_saturation : exists C s s2, ldpc_decoder table1 2 sort_words = Ok (C, [0; 0; 0; 0]%N) /\
  ldpc_decode table1 2 1 C blank1 [120; -3; 115; 127; 109; 99; 112; 100]%Z (repeat 100%Z 8) 1
    = Ok (s, [127; 59; 127; 127; 127; 127; 127; 127]%Z, repeat 127%Z 8, 0%Z) /\
  ldpc_decode table1 2 1 C blank1 (product data1 [120; -3; 115; 127; 109; 99; 112; 100]%Z) (product parity1 (repeat 100%Z 8)) 1
    = Ok (s2, [127; -59; 127; 127; -128; -128; 127; -128]%Z, [-128; -128; 127; -128; 127; 127; -128; 127]%Z, 0%Z).
Proof. eexists _, _, _. split; [vm_compute; reflexivity|]. split; vm_compute; reflexivity. Qed.
