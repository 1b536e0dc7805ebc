(** Proofs about Model_rs: the decoder. *)
From Coq Require Import ZifyBool ZifyNat ZifyN Field.
From Verif Require Import Cpp Lib_list Proof_bits Model_gf Model_rs Spec_gf Lib_gf2lin Lib_gf2poly Lib_gf Lib_field Lib_poly Lib_rs Proof_gf Proof_gffield Proof_crs1 Proof_crs2 Proof_rs1 Proof_rs2 Proof_rs3 Proof_rs4.
Local Open Scope N_scope.

(** the received or transmitted word *)
Definition word (len : nat) (data parity : list N) : list N := firstn len data ++ parity.
Lemma length_word len d p : (len <= length d)%nat -> length (word len d p) = (len + length p)%nat.
Proof. intros H. unfold word. rewrite app_length, firstn_length. lia. Qed.
Lemma nth_word len d p t : (len <= length d)%nat -> nth t (word len d p) 0 = if (t <? len)%nat then nth t d 0 else nth (t - len) p 0.
Proof.
  intros H. unfold word. destruct (Nat.ltb_spec t len).
  - rewrite app_nth1 by (rewrite firstn_length; lia). rewrite nth_firstn'. replace (t <? len)%nat with true by lia. reflexivity.
  - rewrite app_nth2 by (rewrite firstn_length; lia). rewrite firstn_length. f_equal. lia.
Qed.
Lemma word_upd_data len d p i x : (len <= length d)%nat -> (i < len)%nat -> word len (upd d i x) p = upd (word len d p) i x.
Proof.
  intros H Hi. apply (list_ext _ _ 0).
  - rewrite length_upd, !length_word by (rewrite ?length_upd; exact H). reflexivity.
  - intros t Ht. rewrite nth_upd, !nth_word, nth_upd, length_word by (rewrite ?length_upd; exact H).
    destruct (Nat.ltb_spec t len), (Nat.eqb_spec i t), (Nat.ltb_spec i (length d)), (Nat.ltb_spec i (len + length p)); cbn [andb]; try reflexivity; lia.
Qed.
Lemma word_upd_parity len d p j x : (len <= length d)%nat -> (j < length p)%nat -> word len d (upd p j x) = upd (word len d p) (len + j) x.
Proof.
  intros H Hj. apply (list_ext _ _ 0).
  - rewrite length_upd, !length_word by exact H. rewrite length_upd. reflexivity.
  - intros t Ht. rewrite nth_upd, !nth_word, nth_upd, length_word by exact H.
    destruct (Nat.ltb_spec t len), (Nat.eqb_spec (len + j) t), (Nat.eqb_spec j (t - len)), (Nat.ltb_spec j (length p)), (Nat.ltb_spec (len + j) (len + length p)); cbn [andb]; try reflexivity; lia.
Qed.
Lemma skipn_upd {A} (d : list A) len i x : (i < len)%nat -> skipn len (upd d i x) = skipn len d.
Proof.
  intros H. apply nth_error_ext'; [rewrite !skipn_length, length_upd; reflexivity|]. intros j Hj. rewrite !nth_error_skipn'. rewrite skipn_length, length_upd in Hj.
  destruct d as [|y d']; [cbn in Hj; lia|]. rewrite !(nth_error_nth' _ y) by (rewrite ?length_upd; lia). f_equal. rewrite nth_upd.
  destruct (Nat.eqb_spec i (len + j)); [lia|reflexivity].
Qed.
Lemma Forall_firstn' {A} (P : A -> Prop) n l : Forall P l -> Forall P (firstn n l).
Proof. intros H. revert n. induction H; intros [|n]; cbn; constructor; auto. Qed.

Section Sup.
Variable F : fld.
Add Field FFs : (fth F).
Lemma fsum_support n (g : nat -> F) (l : list nat) : NoDup l -> Forall (fun t => (t < n)%nat) l -> (forall t, (t < n)%nat -> ~ In t l -> g t = f0) ->
  fsum n g = fsum (length l) (fun k => g (nth k l 0%nat)).
Proof.
  revert g. induction l as [|h l IH]; intros g ND HB HZ.
  - cbn. apply fsum_0. intros i Hi. apply HZ; [exact Hi|intros []].
  - inversion ND as [|? ? Hn ND']; subst. inversion HB as [|? ? Hh HB']; subst.
    set (g' := fun t => if Nat.eqb t h then f0 else g t).
    cbn [length]. rewrite fsum_S_l. cbn [nth].
    rewrite (fsum_ext F (length l) (fun i => g (nth i l 0%nat)) (fun i => g' (nth i l 0%nat))).
    + rewrite <- (IH g' ND' HB').
      * assert (EG : fsum n (fun t => if Nat.eqb t h then g t else f0) = g h).
        { rewrite (fsum_single F n (fun t => if Nat.eqb t h then g t else f0) h); [rewrite Nat.eqb_refl; reflexivity|exact Hh|].
          intros i Hi Hne. destruct (Nat.eqb_spec i h); [contradiction|reflexivity]. }
        transitivity (fadd (fsum n (fun t => if Nat.eqb t h then g t else f0)) (fsum n g')); [|rewrite EG; reflexivity].
        rewrite <- fsum_add. apply fsum_ext. intros i Hi. unfold g'. destruct (Nat.eqb i h); ring.
      * intros t Ht Hin. unfold g'. destruct (Nat.eqb_spec t h); [reflexivity|]. apply HZ; [exact Ht|]. intros [E|E]; [congruence|contradiction].
    + intros i Hi. unfold g'. destruct (Nat.eqb_spec (nth i l 0%nat) h) as [E|]; [|reflexivity]. exfalso. apply Hn. rewrite <- E. apply nth_In. exact Hi.
Qed.
End Sup.

Section S.
Variable G : gf.
Hypothesis OK : gf_ok G.
Notation Q := (2 ^ gf_M G).
Notation Q1 := (2 ^ gf_M G - 1).
Notation F := (gf_fld G OK).
Notation I := (inn G OK : N -> car F).
Notation ridx := (ridx G OK).
Notation rv := (rv G OK).
Notation pl := (pl G OK).
Notation al := (al G OK).
Notation Xp := (Xp G OK).
Notation sq := (sq G OK).
Notation smallq := (Forall (fun x => x < Q)).
Notation Rp p := (fpow al (S p)).
Add Field FFr5 : (fth (gf_fld G OK)).
Variables NR FCR : nat.
Hypothesis HNR : (1 <= NR)%nat.
Hypothesis HNQ : (NR < N.to_nat Q1)%nat.
Hypothesis HFCR : (FCR < N.to_nat Q1)%nat.
Notation rho := (rho G OK FCR).
Notation ymag := (ymag G OK NR FCR).
Notation corr := (corr G OK NR FCR).
Let c2 : forall x : car F, fadd x x = f0 := C2 G OK.

Definition syn (w : list N) (i : nat) : car F := hor (rho i) f0 (pl w).
Lemma syn_sum (w : list N) i off : (off + length w = N.to_nat Q1)%nat ->
  syn w i = fsum (length w) (fun t => fmul (I (nth t w 0)) (fpow (Xp (off + t)) (FCR + i))).
Proof.
  intros HL. unfold syn. rewrite hor_sum. unfold Proof_rs1.pl at 1. rewrite map_length. apply fsum_ext. intros t Ht. rewrite (nth_pl G OK). f_equal.
  unfold Proof_rs1.pl. rewrite map_length. rewrite (rho_pow G OK NR) by assumption. unfold Proof_rs1.Xp. f_equal. f_equal. lia.
Qed.

Definition applied (off : nat) (w w' : list N) (pos : list nat) (n : nat) (y : nat -> car F) : Prop :=
  (forall i, (i < n)%nat -> I (nth (nth i pos 0%nat - off) w' 0) = fadd (I (nth (nth i pos 0%nat - off) w 0)) (y (nth i pos 0%nat))) /\
  (forall t, (forall i, (i < n)%nat -> nth i pos 0%nat <> (off + t)%nat) -> nth t w' 0 = nth t w 0).
Definition nzb (y : nat -> car F) (p : nat) : bool := if fdec (y p) f0 then false else true.

Definition outcome (len f : nat) (data parity er : list N) (d' p' er' : list N) (z : Z) : Prop :=
  let off := (rs_K G NR - len)%nat in
  let w := word len data parity in let w' := word len d' p' in
  length d' = length data /\ smallq d' /\ length p' = NR /\ smallq p' /\ skipn len d' = skipn len data /\
  length er' = length er /\ (forall i, (i < f)%nat -> nth i er' 0 = nth i er 0 + N.of_nat off) /\
  ((z = 0%Z /\ d' = data /\ p' = parity /\ forall i, (i < NR)%nat -> syn w i = f0) \/
   (exists s z0 locs mags C L deg, length s = NR /\ (forall i, (i < NR)%nat -> sq s i = syn w i) /\ (exists i, (i < NR)%nat /\ syn w i <> f0) /\
      corr s er' f z0 locs mags C L deg /\
      ((d' = data /\ p' = parity /\ z = z0 /\ (z0 <= 0)%Z) \/
       (z0 = Z.of_nat deg /\ (1 <= deg)%nat /\ exists pos, found G OK C deg locs pos /\
          ((d' = data /\ p' = parity /\ z = (-1)%Z /\ Exists (fun p => (p < off)%nat) pos) \/
           (Forall (fun p => (off <= p)%nat) pos /\ applied off w w' pos deg (ymag s C deg) /\ z = Z.of_nat (length (filter (nzb (ymag s C deg)) pos)))))))).

Lemma decode_ok imap data parity er f len : imap_ok G OK imap -> smallq data -> smallq parity -> length parity = NR ->
  (1 <= len <= rs_K G NR)%nat -> (len <= length data)%nat -> (f <= NR)%nat -> (f <= length er)%nat -> (forall i, (i < f)%nat -> nth i er 0 < N.of_nat (len + NR)) ->
  exists d' p' er' z, rs_decode G NR FCR imap data parity er f len = Ok (d', p', er', z) /\ outcome len f data parity er d' p' er' z.
Proof.
  intros HI SD SP LP Hlen Hdata Hf LE HE. unfold rs_decode. set (K := rs_K G NR) in *. set (off := (K - len)%nat).
  assert (HK : (K + NR = N.to_nat Q1)%nat) by (unfold K, rs_K; change (gf_N G) with Q1; lia).
  replace (f <=? NR)%nat with true by lia. replace ((0 <? len) && (len <=? K))%nat%bool with true by lia. cbn [assert_ bind].
  assert (EER : exists er', (if (negb (f =? 0) && (len <? K))%nat then for_up 0 f (fun i erasures => e <- rd erasures i ;; k <- mkIndexI G (N.to_nat e + K - len) ;; wr erasures i k) er else Ok er) = Ok er' /\
     length er' = length er /\ forall i, (i < f)%nat -> nth i er' 0 = nth i er 0 + N.of_nat off).
  { destruct (Nat.eqb_spec f 0) as [F0|F0]; cbn [negb andb].
    - exists er. split; [reflexivity|]. split; [reflexivity|]. intros; lia.
    - destruct (Nat.ltb_spec len K) as [H|H].
      + edestruct (for_up_inv (fun n (l : list N) => length l = length er /\ (forall i, (i < n)%nat -> nth i l 0 = nth i er 0 + N.of_nat off) /\ (forall i, (n <= i)%nat -> nth i l 0 = nth i er 0))) as (er' & E & L1 & H1 & _).
        4: { exists er'. split; [exact E|auto]. }
        * lia.
        * intros n l Hn (L1 & H1 & H2). cbv beta. rewrite (rd_nth l n 0) by lia. cbn [bind]. rewrite H2 by lia. pose proof (HE n ltac:(lia)) as HEn.
          rewrite (mkI G OK) by lia. cbn [bind]. rewrite wr_Ok by lia. eexists. split; [reflexivity|]. split; [rewrite length_upd; exact L1|]. split; intros i Hi; rewrite nth_upd.
          -- destruct (Nat.eqb_spec n i) as [<-|]; [replace (n <? length l)%nat with true by lia; cbn [andb]; lia|]. cbn [andb]. apply H1. lia.
          -- destruct (Nat.eqb_spec n i); [lia|]. cbn [andb]. apply H2. lia.
        * split; [reflexivity|]. split; [intros; lia|reflexivity].
      + exists er. split; [reflexivity|]. split; [reflexivity|]. intros i Hi. unfold off. replace (K - len)%nat with 0%nat by lia. lia. }
  destruct EER as (er' & EE & LE' & HE'). rewrite EE. cbn [bind].
  destruct (syndromes_ok G OK NR FCR HNR HNQ HFCR data parity (uninit N NR) len SD SP LP Hlen Hdata) as (s0 & nonzero & ES & LS0 & VS & NZ).
  { unfold uninit. apply repeat_length. }
  rewrite ES. cbn [bind].
  change (firstn len data ++ parity) with (word len data parity) in *. set (w := word len data parity) in *.
  assert (Lw : length w = (len + NR)%nat) by (unfold w; rewrite length_word, LP by exact Hdata; reflexivity).
  assert (BASE : length data = length data /\ smallq data /\ length parity = NR /\ smallq parity /\ skipn len data = skipn len data /\
     length er' = length er /\ (forall i, (i < f)%nat -> nth i er' 0 = nth i er 0 + N.of_nat off)) by (do 6 (split; [auto|]); exact HE').
  destruct (Nat.eqb_spec nonzero 0) as [Z0|Z0].
  { exists data, parity, er', 0%Z. split; [reflexivity|]. unfold outcome. cbv zeta. do 7 (split; [apply BASE|]). left. split; [reflexivity|]. split; [reflexivity|]. split; [reflexivity|].
    apply NZ. exact Z0. }
  destruct (settled_ok NR s0 (fun i x => rv x (syn w i))) as (s & Es & Ls & Vs). { intros i Hi. apply VS. lia. }
  rewrite Es. cbn [bind].
  assert (SS : smallq s) by (apply small_intro; intros i Hi; apply Vs; lia).
  assert (QS : forall i, (i < NR)%nat -> sq s i = syn w i). { intros i Hi. unfold Proof_rs1.sq. rewrite (nth_pl G OK). apply Vs. exact Hi. }
  assert (SN : exists i, (i < NR)%nat /\ syn w i <> f0).
  { clear - NZ Z0. assert (D : forall n, (n <= NR)%nat -> (exists i, (i < n)%nat /\ syn w i <> f0) \/ (forall i, (i < n)%nat -> syn w i = f0)).
    { induction n as [|n IH]; intros Hn; [right; intros; lia|]. destruct (IH ltac:(lia)) as [(i & Hi & H)|H]; [left; exists i; split; [lia|exact H]|].
      destruct (fdec (syn w n) f0) as [E|E]; [|left; exists n; auto]. right. intros i Hi. destruct (Nat.eq_dec i n) as [->|]; [exact E|apply H; lia]. }
    destruct (D NR (le_n _)) as [H|H]; [exact H|]. exfalso. apply Z0. apply NZ. exact H. }
  destruct (correction_ok G OK NR FCR HNR HNQ HFCR imap s (uninit N NR) (uninit N NR) er' f HI SS Ls) as (z0 & locs & mags & C & L & deg & EC & LLo & LMa & CO).
  { destruct SN as (i & Hi & H). exists i. rewrite QS by exact Hi. auto. } { unfold uninit. apply repeat_length. } { unfold uninit. apply repeat_length. } { exact Hf. } { lia. }
  { intros i Hi. rewrite HE' by exact Hi. pose proof (HE i Hi). lia. }
  rewrite EC. cbn [bind].
  destruct (Z.leb_spec z0 0) as [HZ|HZ].
  { exists data, parity, er', z0. split; [reflexivity|]. unfold outcome. cbv zeta. do 7 (split; [apply BASE|]). right.
    exists s, z0, locs, mags, C, L, deg. split; [exact Ls|]. split; [exact QS|]. split; [exact SN|]. split; [exact CO|]. left. auto. }
  pose proof CO as (_ & _ & _ & HdL & _ & _ & _ & _ & [Ez|(Ez & pos & FO & VM)] & _); [lia|].
  assert (Hdeg : (1 <= deg)%nat) by lia. rewrite Ez, Nat2Z.id. pose proof FO as (LPo & NDp & FRp & HLp).
  assert (EBAD : exists bad, for_up 0 deg (fun i bad => l <- rdu locs i ;; Ok (bad || (N.to_nat l <? off)%nat)%bool) false = Ok bad /\
    (bad = true -> Exists (fun p => (p < off)%nat) pos) /\ (bad = false -> Forall (fun p => (off <= p)%nat) pos)).
  { edestruct (for_up_inv (fun n bad => (bad = true -> exists i, (i < n)%nat /\ (nth i pos 0 < off)%nat) /\ (bad = false -> forall i, (i < n)%nat -> (off <= nth i pos 0)%nat))) as (bad & E & H1 & H2).
    4: { exists bad. split; [exact E|]. split.
         - intros B. destruct (H1 B) as (i & Hi & H). apply Exists_exists. exists (nth i pos 0%nat). split; [apply nth_In; lia|exact H].
         - intros B. apply Forall_forall. intros p Hp. apply (In_nth _ _ 0%nat) in Hp. destruct Hp as (i & Hi & <-). apply H2; [exact B|lia]. }
    - lia.
    - intros n bad Hn (H1 & H2). cbv beta. rewrite (rdu_nth _ _ _ (HLp n ltac:(lia))). cbn [bind]. eexists. split; [reflexivity|]. rewrite Nat2N.id. fold off.
      destruct bad; cbn [orb].
      + split; [intros _|discriminate]. destruct (H1 eq_refl) as (i & Hi & H). exists i. split; [lia|exact H].
      + destruct (Nat.ltb_spec (nth n pos 0%nat) off) as [B|B].
        * split; [intros _; exists n; split; [lia|exact B]|discriminate].
        * split; [discriminate|]. intros _ i Hi. destruct (Nat.eq_dec i n) as [->|]; [exact B|apply H2; [reflexivity|lia]].
    - split; [discriminate|]. intros; lia. }
  destruct EBAD as (bad & EBD & HB1 & HB2). rewrite EBD. cbn [bind]. destruct bad.
  { exists data, parity, er', (-1)%Z. split; [reflexivity|]. unfold outcome. cbv zeta. do 7 (split; [apply BASE|]). right.
    exists s, z0, locs, mags, C, L, deg. split; [exact Ls|]. split; [exact QS|]. split; [exact SN|]. split; [exact CO|]. right. split; [exact Ez|]. split; [exact Hdeg|].
    exists pos. split; [exact FO|]. left. auto. }
  specialize (HB2 eq_refl). clear HB1.
  assert (HP : forall i, (i < deg)%nat -> (off <= nth i pos 0%nat < N.to_nat Q1)%nat).
  { intros i Hi. split; [apply (proj1 (Forall_nth (fun p => (off <= p)%nat) pos) HB2); lia|]. apply (proj1 (Forall_nth (isroot G OK C) pos) FRp). lia. }
  set (y := ymag s C deg) in *.
  edestruct (for_up_inv (fun n '((d, p) : list N * list N) => length d = length data /\ smallq d /\ length p = NR /\ smallq p /\ skipn len d = skipn len data /\
     applied off w (word len d p) pos n y)) as (st & E & HA).
  4: { rewrite E. destruct st as [d' p']. destruct HA as (A1 & A2 & A3 & A4 & A5 & A6). cbn [bind].
    edestruct (for_up_inv (fun n (c : nat) => c = length (filter (nzb y) (firstn n pos)))) as (c & E' & Hc).
    4: { rewrite E'. cbn [bind]. exists d', p', er', (Z.of_nat c). split; [reflexivity|]. unfold outcome. cbv zeta. do 5 (split; [assumption|]). do 2 (split; [apply BASE|]).
      right. exists s, z0, locs, mags, C, L, deg. split; [exact Ls|]. split; [exact QS|]. split; [exact SN|]. split; [exact CO|]. right. split; [exact Ez|]. split; [exact Hdeg|].
      exists pos. split; [exact FO|]. right. split; [exact HB2|]. split; [exact A6|]. rewrite Hc, firstn_all2 by lia. reflexivity. }
    - lia.
    - intros n c Hn Hc. cbv beta. destruct (VM n ltac:(lia)) as (x & Ex & Rx). rewrite (rdu_nth _ _ _ Ex). cbn [bind]. eexists. split; [reflexivity|].
      rewrite (firstn_snoc pos n 0%nat) by lia. rewrite filter_app, app_length, <- Hc. cbn [filter]. change (ymag s C deg (nth n pos 0%nat)) with (y (nth n pos 0%nat)) in Rx.
      assert (NB : nzb y (nth n pos 0%nat) = nz x). { unfold nzb. destruct (fdec (y (nth n pos 0%nat)) f0), (rv_nz G OK _ _ Rx) as [(N1 & Z1)|(N1 & Z1)]; rewrite N1; try reflexivity; contradiction. }
      rewrite NB. destruct (nz x); cbn [length]; lia.
    - reflexivity. }
  - lia.
  - intros n [d p] Hn (A1 & A2 & A3 & A4 & A5 & A6 & A7). cbv beta. rewrite (rdu_nth _ _ _ (HLp n ltac:(lia))). cbn [bind].
    destruct (VM n ltac:(lia)) as (x & Ex & Rx). rewrite (rdu_nth _ _ _ Ex). cbn [bind]. change (ymag s C deg (nth n pos 0%nat)) with (y (nth n pos 0%nat)) in Rx.
    set (q := nth n pos 0%nat) in *. pose proof (HP n ltac:(lia)) as Hq. fold q in Hq. rewrite nat_N_Z.
    assert (EI : (Z.of_nat q + Z.of_nat len - Z.of_nat K)%Z = Z.of_nat (q - off)) by lia. rewrite EI.
    assert (FRESH : forall i, (i < n)%nat -> nth i pos 0%nat <> (off + (q - off))%nat).
    { intros i Hi E. replace (off + (q - off))%nat with q in E by lia. apply (proj1 (NoDup_nth pos 0%nat) NDp) in E; lia. }
    assert (STEP : forall v wv, wv = upd (word len d p) (q - off) v -> rv v (fadd (I (nth (q - off) (word len d p) 0)) (y q)) -> applied off w wv pos (S n) y).
    { intros v wv -> Rv. assert (Lwd : length (word len d p) = (len + NR)%nat) by (rewrite length_word by lia; lia).
      split.
      - intros i Hi. rewrite nth_upd. destruct (Nat.eq_dec i n) as [->|Hne].
        + fold q. rewrite Nat.eqb_refl. replace (q - off <? length (word len d p))%nat with true by lia. cbn [andb]. rewrite (proj2 Rv). rewrite (A7 (q - off)%nat FRESH). reflexivity.
        + destruct (Nat.eqb_spec (q - off) (nth i pos 0%nat - off)) as [E|_]; [|cbn [andb]; apply A6; lia]. exfalso.
          pose proof (HP i ltac:(lia)). apply (FRESH i); [lia|lia].
      - intros t Ht. rewrite nth_upd. destruct (Nat.eqb_spec (q - off) t) as [<-|Hne].
        + exfalso. apply (Ht n); [lia|]. fold q. lia.
        + cbn [andb]. apply A7. intros i Hi. apply Ht. lia. }
    destruct (Z.ltb_spec (Z.of_nat (q - off)) (Z.of_nat len)) as [B|B].
    + rewrite (rdZ_nth d _ 0) by lia. cbn [bind]. rewrite Nat2Z.id.
      destruct (rv_add G OK _ x (I (nth (q - off) d 0)) (y q) (rv_I G OK _ (small_nth G OK d (q - off) A2)) Rx) as (v & _ & Ev & Rv). rewrite Ev. cbn [bind].
      rewrite wrZ_Ok by lia. cbn [bind]. rewrite Nat2Z.id. eexists. split; [reflexivity|]. split; [rewrite length_upd; exact A1|]. split; [apply small_upd; [exact OK|exact A2|apply Rv]|].
      split; [exact A3|]. split; [exact A4|]. split; [rewrite skipn_upd by lia; exact A5|]. apply (STEP v); [apply word_upd_data; lia|].
      rewrite nth_word by lia. replace (q - off <? len)%nat with true by lia. exact Rv.
    + replace (Z.of_nat (q - off) - Z.of_nat len)%Z with (Z.of_nat (q - off - len)) by lia. rewrite (rdZ_nth p _ 0) by lia. cbn [bind]. rewrite Nat2Z.id.
      destruct (rv_add G OK _ x (I (nth (q - off - len) p 0)) (y q) (rv_I G OK _ (small_nth G OK p (q - off - len) A4)) Rx) as (v & _ & Ev & Rv). rewrite Ev. cbn [bind].
      rewrite wrZ_Ok by lia. cbn [bind]. rewrite Nat2Z.id. eexists. split; [reflexivity|]. split; [exact A1|]. split; [exact A2|].
      split; [rewrite length_upd; exact A3|]. split; [apply small_upd; [exact OK|exact A4|apply Rv]|]. split; [exact A5|]. apply (STEP v).
      * rewrite word_upd_parity by lia. f_equal. lia.
      * rewrite nth_word by lia. replace (q - off <? len)%nat with false by lia. exact Rv.
  - do 4 (split; [apply BASE|]). split; [reflexivity|]. split; [intros; lia|reflexivity].
Qed.
End S.
