(** Property C89: polar_list_decoder.hh and polar_parity_aided.hh with one path. *)
From Coq Require Import ZifyBool ZifyNat.
From Verif Require Import Cpp Model_simd Model_polar Model_polar_list Spec_polar Spec_polar_list Spec_polar_one Lib_list Lib_wht Proof_bits Proof_simd
  Proof_polar1 Proof_polar2 Proof_polar3 Proof_polar4 Proof_polar5 Proof_polar6 Proof_polar7 Proof_plist1 Proof_plist2 Proof_plist3 Proof_plist4 Proof_plist5 Proof_plist6 Proof_plist7
  Proof_pone Prop_polar Prop_polar_list.
Local Open Scope nat_scope.
Ltac Zify.zify_post_hook ::= idtac.

(** both decoders *)
Lemma one_decode P next tr rate1 MAX_M first soft hard maps rank message received frozen level :
  let fl := flags frozen (2 ^ level) in let rs := groles next fl first in let K := payload rs in let r := firstn (2 ^ level) received in
  back_end 1 P -> list_buffers 1 MAX_M soft hard maps rank message received frozen level K -> Forall (fun x => (-127 <= x)%Z) received ->
  (forall c, fst (next c) <> Frozen) -> (forall msg0 maps0 hoff, lgood 1 next msg0 maps0 tr 0 hoff [false] (rate1 hoff) (leaf 1 P next)) ->
  fst (next first) = Data -> 1 <= K -> ~ In Parity rs \/ level <= 12 ->
  exists soft' hard' maps' out, list_decode_with 1 P rate1 MAX_M first soft hard maps rank message received frozen level =
      Ok (soft', hard', maps', option_map (fun r => 0%Z :: tl r) rank, out ++ skipn K message) /\ length out = K /\
    let '(m, w, _) := one_path level rs 1 r in lane_of 0 out = m /\ lane_of 0 (firstn (2 ^ level) hard') = w.
Proof.
  intros fl rs K r BE (HW & HL & HM & Ls & Lh & Lm & Hm & Hr & Hrec & F8 & Hf & Fz) F7 next_ok rate1_good Hfirst HK HP2. pose proof (back_end_ok 1 P BE) as HP.
  pose proof (Nat.pow_le_mono_r 2 level MAX_M ltac:(lia) ltac:(lia)) as Hpw. assert (length fl = 2 ^ level) as Lf by apply length_flags.
  assert (K <= 2 ^ level) as HK2 by (pose proof (payload_le rs) as Q; unfold rs in Q; rewrite length_groles, Lf in Q; exact Q).
  assert (Forall int8 r) as F8' by (apply Forall_firstn_; exact F8). assert (length r = 2 ^ level) as Lr by (unfold r; rewrite firstn_length; lia).
  pose proof (decode_whole 1 HW P HP next next_ok tr rate1 rate1_good MAX_M first soft hard maps rank message received frozen level
    ltac:(lia) ltac:(lia) ltac:(lia) ltac:(lia) Hrec Hf Fz F8' Hfirst HK Hm) as D. cbv zeta in D. specialize (D ltac:(fold fl; fold rs; fold K; lia) Hr).
  fold fl in D. fold rs in D. fold K in D. fold r in D.
  pose proof (start_wf 1 HW P HP next next_ok first Hfirst) as Aw.
  set (sl := map (vdup 1) r) in *. assert (length sl = 2 ^ level) as Lsl by (unfold sl; rewrite map_length; exact Lr).
  assert (Forall (lanes_are 1 int8) sl) as Fsl by (unfold sl; apply Forall_map; eapply Forall_impl; [|exact F8']; intros x Hx; apply lanes_dup; exact Hx).
  assert (lane_of 0 sl = r) as Es by (unfold sl; apply lane_dups; lia).
  assert (Forall soft127 r) as Fr.
  { unfold r. apply Forall_firstn_. apply Forall_forall. intros x Hx. rewrite Forall_forall in F7, F8. specialize (F7 x Hx). specialize (F8 x Hx). unfold soft127, int8 in *. lia. }
  pose proof (lnode_fgood 1 HW P HP next next_ok level fl Lf ltac:(lia) 1000000%Z (start 1 P first) sl ltac:(lia) Aw Lsl Fsl) as G.
  pose proof (lnode_one P HP next next_ok level fl Lf ltac:(lia) 1000000%Z (start 1 P first) sl 0%Z ltac:(lia) Aw Lsl Fsl ltac:(rewrite Es; exact Fr)) as O.
  cbn [start a_left a_par a_metric a_hist] in O. rewrite Es in O. fold rs in O.
  specialize (O ltac:(cbn; lia)).
  assert (lane 0 (p_one P) = 1%Z) as E1 by (apply (vk_one _ _ HP); lia). rewrite E1 in O.
  destruct (lnode 1 P next level fl (start 1 P first) sl) as [[mp x] a]. destruct G as (_ & Lx & _).
  destruct D as (soft' & maps' & out & _ & _ & Lo & E & La & Ho).
  destruct (one_path level rs 1 r) as [[m w] par]. destruct O as (O1 & O2 & _).
  { destruct HP2 as [H|H]; [left; exact H|right]. pose proof (Nat.pow_le_mono_r 2 level 12 ltac:(lia) H) as Q. change (2 ^ 12) with 4096 in Q. lia. }
  do 4 eexists. split; [|split; [exact Lo|split]].
  - rewrite E. do 3 f_equal. destruct rank as [rk|]; [|reflexivity]. cbn [option_map]. f_equal. destruct (a_metric a) as [|z [|? ?]]; try discriminate. destruct rk; reflexivity.
  - rewrite Ho by lia. exact O2.
  - rewrite firstn_app_l by exact Lx. exact O1.
Qed.

(** C89: with one path the list decoder is successive cancellation, a tie being decided as 1, for all soft values above -128 *)
Theorem C89_one_path : forall P MAX_M soft hard maps rank message received frozen level,
  let fl := flags frozen (2 ^ level) in let K := unfrozen fl in
  back_end 1 P -> list_buffers 1 MAX_M soft hard maps rank message received frozen level K -> 1 <= K -> Forall (fun x => (-127 <= x)%Z) received ->
  exists soft' hard' maps' out,
    list_decode 1 P MAX_M soft hard maps rank message received frozen level = Ok (soft', hard', maps', option_map (fun r => 0%Z :: tl r) rank, out ++ skipn K message) /\ length out = K /\
    let '(m, w, _) := one_path level (plain_roles fl) 1 (firstn (2 ^ level) received) in lane_of 0 out = m /\ lane_of 0 (firstn (2 ^ level) hard') = w.
Proof.
  intros P MAX_M soft hard maps rank message received frozen level fl K BE HB HK F7.
  pose proof (one_decode P plain_next false (list_rate1 1) MAX_M 0 soft hard maps rank message received frozen level) as D. cbv zeta in D.
  rewrite groles_plain, payload_plain in D. fold fl in D. fold K in D. apply D; auto.
  - exact plain_next_ok.
  - assert (1 <= 1 <= 256) as HW by lia. intros a b h. exact (list_rate1_good 1 HW P a b h).
  - left. apply plain_no_parity.
Qed.
Print Assumptions C89_one_path.
(** C89: the same for parity aided codes, up to level 12 *)
Theorem C89_one_path_parity : forall P MAX_M soft hard maps rank message received frozen level stride first,
  let fl := flags frozen (2 ^ level) in let rs := parity_roles stride fl first in let K := payload rs in
  back_end 1 P -> list_buffers 1 MAX_M soft hard maps rank message received frozen level K -> 1 <= K -> 1 <= first -> level <= 12 -> Forall (fun x => (-127 <= x)%Z) received ->
  exists soft' hard' maps' out,
    parity_decode 1 P MAX_M soft hard maps rank message received frozen level stride first = Ok (soft', hard', maps', option_map (fun r => 0%Z :: tl r) rank, out ++ skipn K message) /\ length out = K /\
    let '(m, w, _) := one_path level rs 1 (firstn (2 ^ level) received) in lane_of 0 out = m /\ lane_of 0 (firstn (2 ^ level) hard') = w.
Proof.
  intros P MAX_M soft hard maps rank message received frozen level stride first fl rs K BE HB HK Hf HL F7.
  pose proof (one_decode P (parity_next stride) true (parity_rate1 1 P stride) MAX_M first soft hard maps rank message received frozen level) as D. cbv zeta in D.
  rewrite groles_parity in D. fold fl in D. fold rs in D. fold K in D. apply D; auto.
  - exact (parity_next_ok stride).
  - assert (1 <= 1 <= 256) as HW by lia. intros a b h. exact (parity_rate1_good 1 HW P a b stride h).
  - destruct first; [lia|reflexivity].
Qed.
Print Assumptions C89_one_path_parity.
(** C89: hence it decodes like PolarDecoder unless that met a tie (a zero in the message it decoded) *)
Theorem C89_like_the_plain_decoder : forall P MAX_M soft hard maps rank message received frozen level,
  let fl := flags frozen (2 ^ level) in let K := unfrozen fl in
  back_end 1 P -> list_buffers 1 MAX_M soft hard maps rank message received frozen level K -> 1 <= K -> Forall (fun x => (-127 <= x)%Z) received ->
  forall MAX_M1 soft1 hard1 message1, decoder_buffers MAX_M1 soft1 hard1 message1 received frozen level ->
  exists soft' hard' maps' rank' out soft1' hard1' decoded,
    list_decode 1 P MAX_M soft hard maps rank message received frozen level = Ok (soft', hard', maps', rank', out ++ skipn K message) /\ length out = K /\
    polar_decode ops8 MAX_M1 soft1 hard1 message1 received frozen level = Ok (soft1', hard1', decoded ++ skipn K message1) /\ length decoded = K /\
    (Forall (fun x => x <> 0%Z) decoded -> lane_of 0 out = decoded /\ lane_of 0 (firstn (2 ^ level) hard') = firstn (2 ^ level) hard1').
Proof.
  intros P MAX_M soft hard maps rank message received frozen level fl K BE HB HK F7 MAX_M1 soft1 hard1 message1 DB.
  destruct (C89_one_path P MAX_M soft hard maps rank message received frozen level BE HB HK F7) as (soft' & hard' & maps' & out & E & Lo & O).
  assert (Forall int8 received) as F8 by apply HB. fold fl in O. fold K in E, Lo.
  pose proof (decode_gen' ops8 0%Z MAX_M1 soft1 hard1 message1 received frozen level DB) as D. fold fl in D. fold K in D.
  destruct DB as (_ & _ & _ & _ & Hrec & _). rewrite node8 in D by (apply Forall_firstn_; exact F8).
  assert (length fl = 2 ^ level) as Lf by apply length_flags. assert (length (firstn (2 ^ level) received) = 2 ^ level) as Lr by (rewrite firstn_length; lia).
  assert (5 <= level) as H5 by (destruct HB as (_ & H5 & _); lia).
  destruct (agrees_node level fl (firstn (2 ^ level) received) ltac:(lia) Lf Lr) as (S1 & S2).
  destruct (fnode zops level fl _) as [md xd]. cbn [fst snd] in *. destruct D as (Lmd & Lxd & sd & _ & D).
  exists soft', hard', maps', (option_map (fun r => 0%Z :: tl r) rank), out, sd, (xd ++ skipn (2 ^ level) hard1), md.
  split; [exact E|]. split; [exact Lo|]. split; [rewrite D, Lmd; reflexivity|]. split; [exact Lmd|]. intros N.
  pose proof (sut_nonzero md _ S1 (or_introl N)) as Em. specialize (S2 N). rewrite firstn_app_l by exact Lxd.
  pose proof (one_path_plain level fl 1%Z (firstn (2 ^ level) received) Lf Lr) as Q. unfold no_tie in Q. rewrite <- Em in Q. specialize (Q N).
  destruct (one_path level (plain_roles fl) 1 _) as [[m w] par]. cbn [fst] in Q. rewrite <- Q in Em, S2. cbn [fst snd] in *. destruct O as (O1 & O2). split; congruence.
Qed.
Print Assumptions C89_like_the_plain_decoder.

(** ** Examples *)
(** received values with a tie at the first unfrozen position: PolarDecoder answers 0 there, the list decoder 1 *)
Example C89_nonvacuous :
  list_buffers 1 5 (repeat [] 64) (repeat [] 32) (repeat [] 32) (Some [9; 9]%Z) (repeat [] 4) ex_received ex_frozen 5 (unfrozen (flags ex_frozen 32)) /\
  Forall (fun x => (-127 <= x)%Z) ex_received /\ decoder_buffers 5 (repeat 0%Z 64) (repeat 0%Z 32) (repeat 0%Z 3) ex_received ex_frozen 5 /\
  ('(_, _, _, rank, out) <- list_decode 1 (ops8v 1) 5 (repeat [] 64) (repeat [] 32) (repeat [] 32) (Some [9; 9]%Z) (repeat [] 4) ex_received ex_frozen 5 ;; Ok (rank, out)) =
    Ok (Some [0; 9]%Z, [[1]; [-1]; [1]; []]%Z) /\
  (x <- polar_decode ops8 5 (repeat 0%Z 64) (repeat 0%Z 32) (repeat 0%Z 3) ex_received ex_frozen 5 ;; Ok (snd x)) = Ok [1; -1; 1]%Z.
Proof.
  split; [|split; [|split; [|split; [vm_compute; reflexivity|vm_compute; reflexivity]]]].
  - small_buffers.
    + replace (unfrozen (flags ex_frozen 32)) with 3 by (vm_compute; reflexivity). cbn. lia.
    + intros r E. injection E as <-. cbn. lia.
    + apply squares_int8.
    + constructor; [reflexivity|constructor].
  - unfold ex_received. apply Forall_forall. intros x Hx. apply in_map_iff in Hx. destruct Hx as (i & <- & _). lia.
  - unfold decoder_buffers. split; [lia|]. split; [lia|]. split; [reflexivity|]. split; [reflexivity|]. split; [cbn; lia|]. split; [cbn; lia|]. split; [constructor; [reflexivity|constructor]|].
    replace (unfrozen (flags ex_frozen 32)) with 3 by (vm_compute; reflexivity). cbn. lia.
Qed.
(** ties are decided as 1: the received values of C43_ties_differ *)
Example C89_ties :
  (x <- polar_decode ops8 5 (repeat 0%Z 64) (repeat 0%Z 32) (repeat 0%Z 3) tie_received tie_frozen 5 ;; Ok (snd x)) = Ok [0; 0; -1]%Z /\
  ('(_, _, _, rank, out) <- list_decode 1 (ops8v 1) 5 (repeat [] 64) (repeat [] 32) (repeat [] 32) None (repeat [] 3) tie_received tie_frozen 5 ;; Ok out) = Ok [[1]; [-1]; [-1]]%Z.
Proof. split; vm_compute; reflexivity. Qed.
(** a parity symbol after every second message symbol: the third of four unfrozen positions *)
Example C89_parity :
  let frozen := [4294967295 - 2 ^ 23 - 2 ^ 29 - 2 ^ 30 - 2 ^ 31]%N in
  fst (fst (one_path 5 (parity_roles 2 (flags frozen 32) 2) 1 ex_received)) = [1; -1; 1]%Z /\
  ('(_, _, _, rank, out) <- parity_decode 1 (ops8v 1) 5 (repeat [] 64) (repeat [] 32) (repeat [] 32) None (repeat [] 3) ex_received frozen 5 2 2 ;; Ok out) = Ok [[1]; [-1]; [1]]%Z.
Proof. split; vm_compute; reflexivity. Qed.
