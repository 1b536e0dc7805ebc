(** Adding a codeword to the received word: the Reed-Solomon and BCH decoders find the same errors. *)
From Coq Require Import ZifyBool ZifyNat ZifyN Field.
From Verif Require Import Cpp Lib_list Lib_sim Proof_bits Model_bits Spec_bits Model_gf Model_rs Model_bch Spec_gf Spec_rs Lib_gf2lin Lib_gf2poly Lib_gf Lib_field Lib_poly Lib_rs
  Proof_gf Proof_gffield Proof_crs1 Proof_crs2 Proof_rs1 Proof_rs2 Proof_rs3 Proof_rs4 Proof_rs5 Proof_rs6 Proof_osd_sym.
Local Open Scope N_scope.

Section S.
Variable G : gf.
Hypothesis OK : gf_ok G.
Notation Q := (2 ^ gf_M G).
Notation Q1 := (2 ^ gf_M G - 1).
Notation F := (gf_fld G OK).
Notation I := (inn G OK : N -> car F).
Notation rv := (rv G OK).
Notation pl := (pl G OK).
Notation smallq := (Forall (fun x => x < Q)).
Add Field FFt : (fth (gf_fld G OK)).
Variables NR FCR : nat.
Hypothesis HNR : (1 <= NR)%nat.
Hypothesis HNQ : (NR < N.to_nat Q1)%nat.
Hypothesis HFCR : (FCR < N.to_nat Q1)%nat.
Notation syn := (syn G OK FCR).

Lemma I_lxor a b : a < Q -> b < Q -> I (N.lxor a b) = fadd (I a) (I b).
Proof. apply (I_xor G OK). Qed.
Definition plus_word (n : nat) (cw u v : list N) : Prop := forall t, (t < n)%nat -> nth t v 0 = N.lxor (nth t u 0) (nth t cw 0).
Lemma syn_plus n (cw u v : list N) i : length cw = n -> length u = n -> length v = n -> (n <= N.to_nat Q1)%nat -> smallq cw -> smallq u -> plus_word n cw u v -> syn cw i = f0 -> syn v i = syn u i.
Proof.
  intros Lc Lu Lv Hn Sc Su H Z. set (off := (N.to_nat Q1 - n)%nat). transitivity (fadd (syn u i) (syn cw i)); [|rewrite Z; ring].
  rewrite (syn_sum G OK NR FCR HNR HNQ HFCR v i off), (syn_sum G OK NR FCR HNR HNQ HFCR u i off), (syn_sum G OK NR FCR HNR HNQ HFCR cw i off) by lia.
  rewrite Lv, Lu, Lc, <- fsum_add. apply fsum_ext. intros t Ht. rewrite (H t Ht), I_lxor by (apply small_nth; assumption). ring.
Qed.

(** the buffers during the corrections *)
Definition plus_bufs (len : nat) (cw : list N) (s t : list N * list N) : Prop :=
  let '(d, p) := s in let '(d2, p2) := t in
  (len <= length d)%nat /\ (len <= length d2)%nat /\ length p = NR /\ length p2 = NR /\ smallq d /\ smallq d2 /\ smallq p /\ smallq p2 /\
  (forall t, (t < len)%nat -> nth t d2 0 = N.lxor (nth t d 0) (nth t cw 0)) /\ (forall t, (t < NR)%nat -> nth t p2 0 = N.lxor (nth t p 0) (nth (len + t) cw 0)).
Lemma small_upd l i x : smallq l -> x < Q -> smallq (upd l i x).
Proof. intros H Hx. apply small_intro. intros k Hk. rewrite nth_upd. destruct (_ && _)%bool; [exact Hx|]. apply small_nth; assumption. Qed.
Lemma add_rel a b c m : a < Q -> b < Q -> b = N.lxor a c -> rel (fun x y => x < Q /\ y < Q /\ y = N.lxor x c) (v_add_assign G a m) (v_add_assign G b m).
Proof.
  intros Ha Hb E. unfold v_add_assign. destruct (okV G m) as [[]| | |] eqn:Em; cbn [bind rel]; try exact Logic.I.
  assert (m < Q) as Hm. { unfold okV, assert_, gf_N, gf_Q in Em. destruct (m <=? 2 ^ gf_M G - 1) eqn:C; [|discriminate]. pose proof (Qpos G OK). lia. }
  rewrite !(v_add_ok G OK) by assumption. cbn [rel]. split; [apply lxor_lt; assumption|]. split; [apply lxor_lt; assumption|]. rewrite E. rewrite !N.lxor_assoc. f_equal. apply N.lxor_comm.
Qed.
Lemma apply_rel (locations magnitudes : list (option N)) K len cw count s t : plus_bufs len cw s t ->
  rel (plus_bufs len cw)
    (for_up 0 count (fun i '(data, parity) =>
     l <- rdu locations i ;;
     m <- rdu magnitudes i ;;
     let idx := (Z.of_N l + Z.of_nat len - Z.of_nat K)%Z in
     if (idx <? Z.of_nat len)%Z then
       x <- rdZ data idx ;; x <- v_add_assign G x m ;; data <- wrZ data idx x ;; Ok (data, parity)
     else
       let j := (idx - Z.of_nat len)%Z in
       x <- rdZ parity j ;; x <- v_add_assign G x m ;; parity <- wrZ parity j x ;; Ok (data, parity)) s)
    (for_up 0 count (fun i '(data, parity) =>
     l <- rdu locations i ;;
     m <- rdu magnitudes i ;;
     let idx := (Z.of_N l + Z.of_nat len - Z.of_nat K)%Z in
     if (idx <? Z.of_nat len)%Z then
       x <- rdZ data idx ;; x <- v_add_assign G x m ;; data <- wrZ data idx x ;; Ok (data, parity)
     else
       let j := (idx - Z.of_nat len)%Z in
       x <- rdZ parity j ;; x <- v_add_assign G x m ;; parity <- wrZ parity j x ;; Ok (data, parity)) t).
Proof.
  intros H. apply rel_for_up; [exact H|]. clear s t H. intros i (d & p) (d2 & p2) Hi H. pose proof H as (L1 & L2 & L3 & L4 & S1 & S2 & S3 & S4 & H1 & H2).
  apply (rel_bind eq); [apply rel_eq|]. intros l ? <-. apply (rel_bind eq); [apply rel_eq|]. intros m ? <-. cbv zeta.
  set (idx := (Z.of_N l + Z.of_nat len - Z.of_nat K)%Z). destruct (Z.ltb_spec idx (Z.of_nat len)) as [C|C].
  - unfold rdZ, wrZ. destruct (Z.ltb_spec idx 0) as [C0|C0]; [exact Logic.I|]. set (k := Z.to_nat idx). assert (k < len)%nat as Hk by lia. clearbody k. clear idx C C0.
    rewrite (rd_nth d k 0), (rd_nth d2 k 0) by lia. cbn [bind]. eapply rel_bind; [apply (add_rel _ _ (nth k cw 0)); [apply small_nth; assumption|apply small_nth; assumption|apply H1; exact Hk]|].
    intros x y (Hx & Hy & E). rewrite !wr_Ok by lia. cbn [bind rel]. unfold plus_bufs. rewrite !length_upd.
    split; [exact L1|]. split; [exact L2|]. split; [exact L3|]. split; [exact L4|]. split; [apply small_upd; assumption|]. split; [apply small_upd; assumption|]. split; [exact S3|]. split; [exact S4|]. split; [|exact H2].
    intros u Hu. rewrite !nth_upd. destruct (Nat.eqb_spec k u) as [<-|Hne]; cbn [andb]; [|apply H1; exact Hu]. replace (k <? length d)%nat with true by lia. replace (k <? length d2)%nat with true by lia. exact E.
  - unfold rdZ, wrZ. destruct (Z.ltb_spec (idx - Z.of_nat len) 0) as [C0|C0]; [exact Logic.I|]. set (k := Z.to_nat (idx - Z.of_nat len)). clearbody k. clear idx C C0.
    destruct (Nat.lt_ge_cases k NR) as [Hk|Hk].
    + rewrite (rd_nth p k 0), (rd_nth p2 k 0) by lia. cbn [bind]. eapply rel_bind; [apply (add_rel _ _ (nth (len + k) cw 0)); [apply small_nth; assumption|apply small_nth; assumption|apply H2; exact Hk]|].
      intros x y (Hx & Hy & E). rewrite !wr_Ok by lia. cbn [bind rel]. unfold plus_bufs. rewrite !length_upd.
      split; [exact L1|]. split; [exact L2|]. split; [exact L3|]. split; [exact L4|]. split; [exact S1|]. split; [exact S2|]. split; [apply small_upd; assumption|]. split; [apply small_upd; assumption|]. split; [exact H1|].
      intros u Hu. rewrite !nth_upd. destruct (Nat.eqb_spec k u) as [<-|Hne]; cbn [andb]; [|apply H2; exact Hu]. replace (k <? length p)%nat with true by lia. replace (k <? length p2)%nat with true by lia. exact E.
    + assert (rd p k = Undef) as -> by (unfold rd; replace (nth_error p k) with (@None N) by (symmetry; apply nth_error_None; lia); reflexivity).
      assert (rd p2 k = Undef) as -> by (unfold rd; replace (nth_error p2 k) with (@None N) by (symmetry; apply nth_error_None; lia); reflexivity). exact Logic.I.
Qed.
Lemma rs_translate imap data parity data2 parity2 er f len cw : imap_ok G OK imap ->
  smallq data -> smallq parity -> length parity = NR -> (1 <= len <= rs_K G NR)%nat -> (len <= length data)%nat -> (f <= NR)%nat -> (f <= length er)%nat -> (forall i, (i < f)%nat -> nth i er 0 < N.of_nat (len + NR)) ->
  smallq data2 -> smallq parity2 -> length parity2 = NR -> (len <= length data2)%nat ->
  smallq cw -> length cw = (len + NR)%nat -> (forall i, (i < NR)%nat -> syn cw i = f0) -> plus_word (len + NR) cw (word len data parity) (word len data2 parity2) ->
  exists d' p' d2' p2' er' z, rs_decode G NR FCR imap data parity er f len = Ok (d', p', er', z) /\ rs_decode G NR FCR imap data2 parity2 er f len = Ok (d2', p2', er', z) /\
    plus_word (len + NR) cw (word len d' p') (word len d2' p2').
Proof.
  intros HI SD SP LP Hlen Hd Hf LE HE SD2 SP2 LP2 Hd2 Sc Lc Zc HPl.
  destruct (decode_ok G OK NR FCR HNR HNQ HFCR imap data parity er f len HI SD SP LP Hlen Hd Hf LE HE) as (d' & p' & er' & z & E & O).
  pose proof E as E'.
  assert (Lw : length (word len data parity) = (len + NR)%nat) by (rewrite length_word by exact Hd; lia). assert (Lw2 : length (word len data2 parity2) = (len + NR)%nat) by (rewrite length_word by exact Hd2; lia).
  assert (Hn : (len + NR <= N.to_nat Q1)%nat) by (unfold rs_K, gf_N, gf_Q in Hlen; lia).
  assert (Sw : smallq (word len data parity)) by (apply Forall_app; split; [apply Forall_firstn'; exact SD|exact SP]).
  assert (SY : forall i, (i < NR)%nat -> syn (word len data2 parity2) i = syn (word len data parity) i). { intros i Hi. apply (syn_plus (len + NR) cw); auto. }
  destruct (syndromes_ok G OK NR FCR HNR HNQ HFCR data parity (uninit N NR) len SD SP LP Hlen Hd) as (s0 & n0 & ES & LS0 & VS & NZ). { unfold uninit. apply repeat_length. }
  destruct (syndromes_ok G OK NR FCR HNR HNQ HFCR data2 parity2 (uninit N NR) len SD2 SP2 LP2 Hlen Hd2) as (s02 & n02 & ES2 & LS02 & VS2 & NZ2). { unfold uninit. apply repeat_length. }
  change (forall i, (i < NR)%nat -> exists x, nth i s0 None = Some x /\ rv x (syn (word len data parity) i)) in VS.
  change (forall i, (i < NR)%nat -> exists x, nth i s02 None = Some x /\ rv x (syn (word len data2 parity2) i)) in VS2.
  change (n0 = 0%nat <-> forall i, (i < NR)%nat -> syn (word len data parity) i = f0) in NZ. change (n02 = 0%nat <-> forall i, (i < NR)%nat -> syn (word len data2 parity2) i = f0) in NZ2.
  assert (s02 = s0) as ->.
  { apply (list_ext _ _ None); [lia|]. intros i Hi. destruct (VS i ltac:(lia)) as (x & -> & Rx). destruct (VS2 i ltac:(lia)) as (y & -> & Ry). f_equal. rewrite SY in Ry by lia. apply (rv_inj G OK _ _ _ Ry Rx). }
  assert ((n02 =? 0)%nat = (n0 =? 0)%nat) as EN.
  { destruct (Nat.eqb_spec n0 0) as [Z0|Z0]; [apply Nat.eqb_eq, NZ2; intros i Hi; rewrite SY by exact Hi; apply NZ; assumption|].
    apply Nat.eqb_neq. intros Z2. apply Z0, NZ. intros i Hi. rewrite <- SY by exact Hi. apply NZ2; assumption. }
  unfold rs_decode in *. destruct (assert_ (f <=? NR)%nat) as [[]| | |]; cbn [bind] in *; try discriminate.
  destruct (assert_ ((0 <? len) && (len <=? rs_K G NR))%nat) as [[]| | |]; cbn [bind] in *; try discriminate.
  match type of E with bind ?m _ = _ => destruct m as [er1| | |]; cbn [bind] in *; try discriminate end.
  rewrite ES in E, E' |- *. rewrite ES2. cbn [bind] in *. rewrite EN.
  destruct (n0 =? 0)%nat.
  { injection E as <- <- <- <-. exists data, parity, data2, parity2, er1, 0%Z. split; [reflexivity|]. split; [reflexivity|exact HPl]. }
  destruct (settled NR s0) as [s| | |]; cbn [bind] in *; try discriminate.
  destruct (rs_correction G NR FCR imap s (uninit N NR) (uninit N NR) er1 f) as [((count & locs) & mags)| | |]; cbn [bind] in *; try discriminate.
  destruct (count <=? 0)%Z.
  { injection E as <- <- <- <-. exists data, parity, data2, parity2, er1, count. split; [reflexivity|]. split; [reflexivity|exact HPl]. }
  match type of E with bind ?m _ = _ => destruct m as [bad| | |]; cbn [bind] in *; try discriminate end.
  destruct bad.
  { injection E as <- <- <- <-. exists data, parity, data2, parity2, er1, (-1)%Z. split; [reflexivity|]. split; [reflexivity|exact HPl]. }
  assert (PB : plus_bufs len cw (data, parity) (data2, parity2)).
  { split; [exact Hd|]. split; [exact Hd2|]. split; [exact LP|]. split; [exact LP2|]. do 4 (split; [assumption|]). split; intros t Ht.
    - specialize (HPl t ltac:(lia)). rewrite !nth_word in HPl by assumption. replace (t <? len)%nat with true in HPl by lia. exact HPl.
    - specialize (HPl (len + t)%nat ltac:(lia)). rewrite !nth_word in HPl by assumption. replace (len + t <? len)%nat with false in HPl by lia. replace (len + t - len)%nat with t in HPl by lia. exact HPl. }
  pose proof (apply_rel locs mags (rs_K G NR) len cw (Z.to_nat count) _ _ PB) as R. cbv zeta in *. clear E'.
  match type of R with rel _ ?x ?y => destruct x as [(d1 & p1)| | |] eqn:X; [|discriminate..]; destruct y as [(d2' & p2')| | |]; cbn [rel] in R; try contradiction end. cbn [bind] in *.
  match type of E with bind ?m _ = _ => destruct m as [c| | |]; cbn [bind] in *; try discriminate end. injection E as -> -> <- <-.
  exists d', p', d2', p2', er1, (Z.of_nat c). split; [reflexivity|]. split; [reflexivity|]. destruct R as (L1 & L2 & L3 & L4 & _ & _ & _ & _ & R1 & R2).
  intros t Ht. rewrite !nth_word by assumption. destruct (Nat.ltb_spec t len); [apply R1; assumption|]. rewrite R2 by lia. f_equal. f_equal. lia.
Qed.
End S.

(** the two bit decoders *)
From Verif Require Import Spec_bch Proof_bch1 Proof_bch2 Proof_bch3 Proof_bch4 Proof_bch5 Prop_rs.
Lemma plus_len_nth n cw u v : plus_word n cw u v -> forall t, (t < n)%nat -> nth t v 0 = N.lxor (nth t u 0) (nth t cw 0).
Proof. intros H. exact H. Qed.
Lemma bin_nth l : binary l <-> forall t, (t < length l)%nat -> nth t l 0 < 2.
Proof.
  unfold binary. rewrite Forall_nth. split; intros H.
  - intros t Ht. apply H. exact Ht.
  - intros i d Hi. rewrite (nth_indep _ d 0) by exact Hi. apply H. exact Hi.
Qed.
Lemma bin_plus n cw u v : binary cw -> length cw = n -> length u = n -> length v = n -> plus_word n cw u v -> binary u -> binary v.
Proof.
  rewrite !bin_nth. intros Bc Lc Lu Lv H Bu t Ht. rewrite (H t) by lia. apply bin_xor; [apply Bu; lia|]. specialize (Bc t ltac:(lia)). lia.
Qed.
Lemma plus_sym n cw u v : plus_word n cw u v -> plus_word n cw v u.
Proof. intros H t Ht. rewrite (H t Ht), N.lxor_assoc, N.lxor_nilpotent, N.lxor_0_r. reflexivity. Qed.

Lemma bin_dec l : binary l \/ ~ binary l.
Proof.
  induction l as [|x l IH]; [left; constructor|]. destruct (N.lt_ge_cases x 2) as [H|H]; [|right; intros B; apply Forall_inv in B; lia].
  destruct IH as [B|B]; [left; constructor; assumption|right; intros C; apply B; exact (Forall_inv_tail C)].
Qed.

Section B.
Variables (w M POLY : N) (G : gf) (NR FCR K NP : nat) (imap : list N).
Hypothesis HPar : bch_params w M POLY G NR FCR K NP.
Hypothesis HI : rs_imap G = Ok imap.
Variables (A : bch_access) (ok : list N -> Prop) (view : list N -> list N).
Hypothesis AO : gf_ok G -> access_ok G A ok view.
Hypothesis VI : forall a b, ok a -> ok b -> view a = view b -> a = b.
Variables (len : nat) (data parity data2 parity2 er : list N) (count : nat).
Hypothesis OD : ok data.
Hypothesis OP : ok parity.
Hypothesis OD2 : ok data2.
Hypothesis OP2 : ok parity2.
Hypothesis HS : bch_sizes NR K NP len (length (view data)) (length (view parity)) er count.
Hypothesis HS2 : bch_sizes NR K NP len (length (view data2)) (length (view parity2)) er count.
Let wd (d p : list N) : list N := firstn len (view d) ++ firstn NP (view p).
Variable cw : list N.
Hypothesis WC : is_word cw.
Hypothesis CW : rs_codeword M POLY NR FCR cw.
Hypothesis LC : length cw = (len + NP)%nat.
Hypothesis HPl : plus_word (len + NP) cw (wd data parity) (wd data2 parity2).
Lemma btranslate : exists d' p' d2' p2' er' z,
  bch_decode A G K NP NR FCR imap data parity er count len = Ok (d', p', er', z) /\
  bch_decode A G K NP NR FCR imap data2 parity2 er count len = Ok (d2', p2', er', z) /\ ok d' /\ ok p' /\ ok d2' /\ ok p2' /\
  plus_word (len + NP) cw (wd d' p') (wd d2' p2').
Proof.
  destruct (bsim w M POLY G NR FCR K NP imap HPar HI A ok view AO VI len data parity er count OD OP HS) as (d & p & e & z & E & L1 & L2 & (B1 & B2)).
  destruct (bsim w M POLY G NR FCR K NP imap HPar HI A ok view AO VI len data2 parity2 er count OD2 OP2 HS2) as (d2 & p2 & e2 & z2 & E2 & L3 & L4 & (B3 & B4)).
  pose proof (rsp w M POLY G NR FCR K NP HPar ok view VI len er) as RP. destruct (params_ok _ _ _ _ _ _ RP) as (OK & EM & EP & H1 & H2 & H3).
  destruct (imap_create G OK ltac:(rewrite EM; lia)) as (im & EI & IO). assert (im = imap) as -> by congruence.
  assert (RB := rs_bufs w M POLY G NR FCR K NP HPar A ok view AO VI len data parity er count OD OP HS). assert (RB2 := rs_bufs w M POLY G NR FCR K NP HPar A ok view AO VI len data2 parity2 er count OD2 OP2 HS2).
  pose proof HS as (S1 & S2 & S3 & S4 & S5 & S6). pose proof HS2 as (T1 & T2 & T3 & T4 & T5 & T6). pose proof HPar as (P1 & P2 & P3 & P4 & P5 & P6 & P7 & P8).
  set (lr := (len + NP - NR)%nat) in *. assert (LL : (lr + NR)%nat = (len + NP)%nat) by (unfold lr; lia).
  cbv beta in E, E2, RB, RB2. fold (wd data parity) in E, RB. fold (wd data2 parity2) in E2, RB2.
  assert (LW : length (wd data parity) = (len + NP)%nat) by (unfold wd; rewrite app_length, !firstn_length; lia). assert (LW2 : length (wd data2 parity2) = (len + NP)%nat) by (unfold wd; rewrite app_length, !firstn_length; lia).
  pose proof CW as CW'. rewrite <- EM, <- EP in CW'. apply (codeword_syn G OK) in CW'. destruct CW' as (SC & ZC). rewrite <- EM in RB, RB2.
  apply buffers_ok in RB. apply buffers_ok in RB2. destruct RB as (R1 & R2 & R3 & R4 & R5 & R6 & R7 & R8). destruct RB2 as (Q1 & Q2 & Q3 & Q4 & Q5 & Q6 & Q7 & Q8).
  assert (Ew : word lr (firstn lr (wd data parity)) (skipn lr (wd data parity)) = wd data parity) by (unfold word; rewrite firstn_firstn, Nat.min_id; apply firstn_skipn).
  assert (Ew2 : word lr (firstn lr (wd data2 parity2)) (skipn lr (wd data2 parity2)) = wd data2 parity2) by (unfold word; rewrite firstn_firstn, Nat.min_id; apply firstn_skipn).
  destruct (rs_translate G OK NR FCR H1 ltac:(rewrite EM; exact H2) ltac:(rewrite EM; exact H3) imap _ _ (firstn lr (wd data2 parity2)) (skipn lr (wd data2 parity2)) er count lr cw IO R1 R2 R3 R4 R5 R6 R7 R8) as (d' & p' & d2' & p2' & e' & z' & F1 & F2 & F3); try assumption.
  { lia. } { rewrite Ew, Ew2, LL. exact HPl. }
  rewrite E in F1. injection F1 as -> -> -> ->. rewrite E2 in F2. injection F2 as -> -> -> ->. rewrite LL in F3. unfold word in F3. rewrite !firstn_all2 in F3 by lia.
  assert (BC : binary cw) by (apply word_binary; exact WC).
  assert (BB : binary (d' ++ p') <-> binary (d2' ++ p2')).
  { assert (X1 : length (d' ++ p') = (len + NP)%nat) by (rewrite app_length; lia). assert (X2 : length (d2' ++ p2') = (len + NP)%nat) by (rewrite app_length; lia).
    split; [apply (bin_plus (len + NP) cw); auto|apply (bin_plus (len + NP) cw); auto; apply plus_sym; exact F3]. }
  assert (D : binary (d' ++ p') \/ ~ binary (d' ++ p')).
  { apply bin_dec. }
  destruct D as [D|D].
  - destruct (B1 D) as (a & b & Ea & O1 & O2 & V1 & _). destruct (B3 (proj1 BB D)) as (a2 & b2 & Ea2 & O3 & O4 & V2 & _). exists a, b, a2, b2, e', z'.
    split; [exact Ea|]. split; [exact Ea2|]. do 4 (split; [assumption|]). unfold wd. rewrite V1, V2. exact F3.
  - exists data, parity, data2, parity2, e', (-1)%Z. split; [apply B2; exact D|]. split; [apply B4; intros X; apply D, BB, X|]. do 4 (split; [assumption|]). exact HPl.
Qed.
End B.
