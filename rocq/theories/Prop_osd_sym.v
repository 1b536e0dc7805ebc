(** C77: the errors ordered statistics decoding makes depend neither on the codeword that was sent nor on what the decoder object and the buffers held before. *)
From Coq Require Import ZifyBool ZifyNat ZifyN Permutation.
From Verif Require Import Cpp Model_bits Spec_bits Proof_bits Model_osd Spec_osd Proof_osd4 Proof_osd6 Proof_osd_sym Prop_osd.
Ltac Zify.zify_post_hook ::= idtac.
Local Open Scope nat_scope.

(** The soft values [soft2] are [soft] with the signs changed where the word [c] is one, as if [c] had been sent instead of the zero
    word over the same channel (-128 counts as -127 for the decoders, see [soft_at]).  A value of zero carries no sign, so none may stand where [c] is one. *)
Definition turned_by (N : nat) (c : nat -> bool) (soft soft2 : list Z) : Prop :=
  forall i, i < N -> if c i then soft_at soft2 i = (- soft_at soft i)%Z /\ soft_at soft i <> 0%Z else soft_at soft2 i = soft_at soft i.
Lemma turned_by_at N c soft soft2 : turned_by N c soft soft2 -> (forall i, i < N -> soft_at soft2 i = if c i then (- soft_at soft i)%Z else soft_at soft i) /\ (forall i, i < N -> c i = true -> soft_at soft i <> 0%Z).
Proof. intros H. split; intros i Hi; specialize (H i Hi); destruct (c i); try tauto. discriminate. Qed.
Lemma object_sizes N K L o : osd_object N K L o -> osd_sizes N K o /\ length (om_candidate o) = osd_W N * L.
Proof. intros (H1 & H2 & H3 & H4 & H5 & H6). unfold osd_sizes. tauto. Qed.

(** C77: the word decoded from [soft2] is the word decoded from [soft] plus [c], and the returned flag is the same *)
Theorem C77_errors_do_not_depend_on_the_codeword : forall N K O o o2 hard hard2 soft soft2 genmat c, 1 <= K <= N -> (Z.of_nat N <= 32768)%Z ->
  osd_object N K 1 o -> osd_object N K 1 o2 -> bytes hard -> N <= 8 * length hard -> bytes hard2 -> N <= 8 * length hard2 ->
  Forall int8 soft -> N <= length soft -> Forall int8 soft2 -> N <= length soft2 ->
  N * K <= length genmat -> binary genmat -> full_rank N K (entry N genmat) ->
  in_code N K (entry N genmat) c -> turned_by N c soft soft2 ->
  exists hard' hard2' unique,
    osd_decode N K O o hard soft genmat = Ok (hard', unique) /\ osd_decode N K O o2 hard2 soft2 genmat = Ok (hard2', unique) /\
    forall i, i < N -> be_bit_of hard2' i = xorb (be_bit_of hard' i) (c i).
Proof.
  intros N K O o o2 hard hard2 soft soft2 genmat c HK HN HO HO2 HB HL HB2 HL2 HI HS HI2 HS2 HG HBi HR HC HT.
  apply turned_by_at in HT. destruct HT as (HT & HZ). apply object_sizes in HO, HO2. destruct HO as (S1 & C1), HO2 as (S2 & C2). rewrite Nat.mul_1_r in C1, C2.
  apply decode_pair; assumption.
Qed.
Print Assumptions C77_errors_do_not_depend_on_the_codeword.

(** so the sent codeword is found exactly when the zero word would have been *)
Theorem C77_success : forall N K O o o2 hard hard2 soft soft2 genmat c, 1 <= K <= N -> (Z.of_nat N <= 32768)%Z ->
  osd_object N K 1 o -> osd_object N K 1 o2 -> bytes hard -> N <= 8 * length hard -> bytes hard2 -> N <= 8 * length hard2 ->
  Forall int8 soft -> N <= length soft -> Forall int8 soft2 -> N <= length soft2 ->
  N * K <= length genmat -> binary genmat -> full_rank N K (entry N genmat) ->
  in_code N K (entry N genmat) c -> turned_by N c soft soft2 ->
  exists hard' hard2' unique,
    osd_decode N K O o hard soft genmat = Ok (hard', unique) /\ osd_decode N K O o2 hard2 soft2 genmat = Ok (hard2', unique) /\
    (agree N (be_bit_of hard') (fun _ => false) <-> agree N (be_bit_of hard2') c).
Proof.
  intros N K O o o2 hard hard2 soft soft2 genmat c HK HN HO HO2 HB HL HB2 HL2 HI HS HI2 HS2 HG HBi HR HC HT.
  destruct (C77_errors_do_not_depend_on_the_codeword N K O o o2 hard hard2 soft soft2 genmat c) as (h & h2 & u & E1 & E2 & H); try assumption.
  exists h, h2, u. split; [exact E1|]. split; [exact E2|]. split; intros HA i Hi; specialize (HA i Hi); specialize (H i Hi); cbv beta in *; destruct (be_bit_of h i), (be_bit_of h2 i), (c i); cbn in *; congruence.
Qed.
Print Assumptions C77_success.

(** the earlier contents of the decoder object and of the output buffer are irrelevant *)
Theorem C77_reuse : forall N K O o o2 hard hard2 soft genmat, 1 <= K <= N -> (Z.of_nat N <= 32768)%Z ->
  osd_object N K 1 o -> osd_object N K 1 o2 -> bytes hard -> N <= 8 * length hard -> bytes hard2 -> N <= 8 * length hard2 ->
  Forall int8 soft -> N <= length soft -> N * K <= length genmat -> binary genmat -> full_rank N K (entry N genmat) ->
  exists hard' hard2' unique,
    osd_decode N K O o hard soft genmat = Ok (hard', unique) /\ osd_decode N K O o2 hard2 soft genmat = Ok (hard2', unique) /\ agree N (be_bit_of hard') (be_bit_of hard2').
Proof.
  intros N K O o o2 hard hard2 soft genmat HK HN HO HO2 HB HL HB2 HL2 HI HS HG HBi HR.
  destruct (C77_errors_do_not_depend_on_the_codeword N K O o o2 hard hard2 soft soft genmat (fun _ => false)) as (h & h2 & u & E1 & E2 & H); try assumption.
  - exists (fun _ => false). intros i Hi. symmetry. unfold product. clear. induction K as [|k IH]; [reflexivity|]. cbn [parity]. rewrite IH. reflexivity.
  - intros i Hi. reflexivity.
  - exists h, h2, u. split; [exact E1|]. split; [exact E2|]. intros i Hi. rewrite (H i Hi). destruct (be_bit_of h i); reflexivity.
Qed.
Print Assumptions C77_reuse.

(** the list decoder: the same ranks, and every word of the list turned by [c].  The first [n] entries are those C52 speaks about: distinct codewords
    of the search set, and all of those with a correlation of at least zero unless the list is full; entry 0 always holds a codeword *)
Theorem C77_list : forall N K O L o o2 score score2 cperm cperm2 rank rank2 hard hard2 soft soft2 genmat c, 1 <= K <= N -> (Z.of_nat N <= 32768)%Z -> 1 <= L ->
  osd_object N K L o -> osd_object N K L o2 -> length score = L -> length score2 = L -> length cperm = L -> length cperm2 = L -> L <= length rank -> L <= length rank2 ->
  bytes hard -> L * ((N + 7) / 8) <= length hard -> bytes hard2 -> L * ((N + 7) / 8) <= length hard2 ->
  Forall int8 soft -> N <= length soft -> Forall int8 soft2 -> N <= length soft2 ->
  N * K <= length genmat -> binary genmat -> full_rank N K (entry N genmat) ->
  in_code N K (entry N genmat) c -> turned_by N c soft soft2 ->
  let word h j := fun p => be_bit_of h (8 * (j * ((N + 7) / 8)) + p) in
  exists rank' hard' rank2' hard2' n B,
    osdl_decode N K O L o score cperm rank hard soft genmat = Ok (rank', hard') /\
    osdl_decode N K O L o2 score2 cperm2 rank2 hard2 soft2 genmat = Ok (rank2', hard2') /\
    (forall j, j < L -> nth j rank2' 0%Z = nth j rank' 0%Z) /\
    n <= L /\ most_reliable_basis N K (entry N genmat) soft B /\
    (forall j, j < n -> searched N K (entry N genmat) soft B (min O 6) (word hard' j) /\ (0 <= correlation N soft (word hard' j))%Z) /\
    (forall i j, i < j < n -> ~ agree N (word hard' i) (word hard' j)) /\
    (forall d, searched N K (entry N genmat) soft B (min O 6) d -> (0 <= correlation N soft d)%Z -> (exists j, j < n /\ agree N d (word hard' j)) \/ n = L) /\
    (forall j, j = 0 \/ j < n -> forall i, i < N -> word hard2' j i = xorb (word hard' j i) (c i)).
Proof.
  intros N K O L o o2 score score2 cperm cperm2 rank rank2 hard hard2 soft soft2 genmat c HK HN HL HO HO2 Ls Ls2 Lc Lc2 Lr Lr2 HB HL1 HB2 HL2 HI HS HI2 HS2 HG HBi HR HC HT.
  apply turned_by_at in HT. destruct HT as (HT & HZ). apply object_sizes in HO, HO2. destruct HO as (S1 & C1), HO2 as (S2 & C2).
  apply decode_list_pair; assumption.
Qed.
Print Assumptions C77_list.

(** the Hamming code of C51, the codeword 1011000 with one unreliable wrong bit, and the same noise on the zero word; the second object held other values *)
Definition used (N K L : nat) : osd_members :=
  {| om_G := repeat 1%Z (osd_W N * K); om_codeword := repeat (-3)%Z (osd_W N); om_candidate := repeat 1%Z (osd_W N * L); om_softperm := repeat 100%Z (osd_W N);
     om_perm := repeat 0 (osd_W N); om_tmp := repeat None N |}.
Definition c77 (i : nat) : bool := nth i [true; false; true; true; false; false; false] false.
Example C77_nonvacuous : osd_object 7 4 1 (fresh 7 4 1) /\ osd_object 7 4 1 (used 7 4 1) /\ osd_object 7 4 4 (used 7 4 4) /\ full_rank 7 4 (entry 7 hamming) /\
  in_code 7 4 (entry 7 hamming) c77 /\ turned_by 7 c77 [50; 40; -10; 127; 60; 30; 127]%Z [-50; 40; 10; -128; 60; 30; 127]%Z /\
  osd_decode 7 4 1 (fresh 7 4 1) [1%N] [50; 40; -10; 127; 60; 30; 127]%Z hamming = Ok ([1%N], true) /\
  osd_decode 7 4 1 (used 7 4 1) [1%N] [-50; 40; 10; -128; 60; 30; 127]%Z hamming = Ok ([177%N], true) /\
  osdl_decode 7 4 2 4 (used 7 4 4) [9;9;9;9]%Z [9;9;9;9] [7;7;7;7]%Z [1;1;1;1]%N [50; 40; -10; 127; 60; 30; 127]%Z hamming = Ok ([0;1;2;3]%Z, map (N.lxor 176) [177; 157; 117; 89]%N).
Proof.
  split; [repeat split; vm_compute; lia|]. split; [repeat split; vm_compute; lia|]. split; [repeat split; vm_compute; lia|]. split; [exact hamming_rank|]. split; [|split; [|split; [|split]]].
  - exists (fun j => nth j [true; false; true; true] false). intros i Hi. do 7 (destruct i as [|i]; [vm_compute; reflexivity|]). lia.
  - intros i Hi. do 7 (destruct i as [|i]; [vm_compute; try split; congruence|]). lia.
  - vm_compute. reflexivity.
  - vm_compute. reflexivity.
  - vm_compute. reflexivity.
Qed.
(** the condition about zero values is needed: erased everywhere, the decoder answers with the zero word whatever was sent *)
Example C77_erasures_differ : in_code 3 1 (entry 3 [1; 1; 1]%Z) (fun _ => true) /\
  osd_decode 3 1 1 (fresh 3 1 1) [1%N] [0; 0; 0]%Z [1; 1; 1]%Z = Ok ([1%N], false).
Proof. split; [|vm_compute; reflexivity]. exists (fun _ => true). intros i Hi. do 3 (destruct i as [|i]; [vm_compute; reflexivity|]). lia. Qed.
