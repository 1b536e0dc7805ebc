(** Proofs about Model_bch: the decoder does what the Reed-Solomon decoder does to the word of bits, unless that leaves a symbol
    that is not a bit. *)
From Coq Require Import ZifyBool ZifyNat ZifyN Field.
From Verif Require Import Cpp Lib_list Proof_bits Model_bits Spec_bits Model_gf Model_rs Model_bch Spec_gf Spec_rs Lib_gf2lin Lib_gf2poly Lib_gf Lib_field Lib_poly Lib_rs Proof_gf Proof_gffield Proof_crs1 Proof_crs2 Proof_rs1 Proof_rs2 Proof_rs3 Proof_rs4 Proof_rs5.
Local Open Scope N_scope.

(** shifting the erased positions *)
Lemma shift_loop (sh : N -> res N) (er : list N) f B d : (forall e, e < B -> sh e = Ok (e + d)) -> (forall i, (i < f)%nat -> nth i er 0 < B) -> (f <= length er)%nat ->
  for_up 0 f (fun i l => e <- rd l i ;; k <- sh e ;; wr l i k) er = Ok (map (fun e => e + d) (firstn f er) ++ skipn f er).
Proof.
  intros HS HB HF.
  edestruct (for_up_inv (fun n (l : list N) => l = map (fun e => e + d) (firstn n er) ++ skipn n er)) as (l & E & ->).
  4: { exact E. }
  - lia.
  - intros n l Hn ->. cbv beta. assert (LM : length (map (fun e => e + d) (firstn n er)) = n) by (rewrite map_length, firstn_length; lia).
    rewrite (rd_nth _ n 0) by (rewrite app_length, LM, skipn_length; lia). cbn [bind]. rewrite app_nth2 by lia. rewrite LM, Nat.sub_diag, nth_skipn', Nat.add_0_r.
    rewrite HS by (apply HB; lia). cbn [bind]. rewrite wr_Ok by (rewrite app_length, LM, skipn_length; lia). eexists. split; [reflexivity|].
    apply (list_ext _ _ 0); [rewrite length_upd, !app_length, LM, map_length, !skipn_length, firstn_length; lia|].
    intros j Hj. rewrite nth_upd, app_length, LM, skipn_length. rewrite (firstn_snoc er n 0) by lia. rewrite map_app, <- app_assoc. cbn [map Datatypes.app].
    destruct (Nat.eqb_spec n j) as [<-|Hne].
    + replace (n <? n + (length er - n))%nat with true by lia. cbn [andb]. rewrite app_nth2 by lia. rewrite LM, Nat.sub_diag. reflexivity.
    + cbn [andb]. destruct (Nat.lt_ge_cases j n); [rewrite !app_nth1 by lia; reflexivity|]. rewrite !app_nth2 by lia. rewrite LM, nth_skipn'.
      assert (EN : forall (x : N) l k, (1 <= k)%nat -> nth k (x :: l) 0 = nth (k - 1) l 0) by (intros x l [|k] Hk; [lia|cbn [nth Nat.sub]; rewrite Nat.sub_0_r; reflexivity]).
      cbn [Datatypes.app]. rewrite EN, nth_skipn' by lia. f_equal. lia.
  - reflexivity.
Qed.

(** the word after the first n corrections *)
Fixpoint app_w (w : list N) (idx : nat -> nat) (mg : nat -> N) (n : nat) : list N :=
  match n with
  | O => w
  | S n' => let u := app_w w idx mg n' in upd u (idx n') (N.lxor (nth (idx n') u 0) (mg n'))
  end.
Lemma length_app_w w idx mg n : length (app_w w idx mg n) = length w.
Proof. induction n as [|n IH]; [reflexivity|]. cbn [app_w]. rewrite length_upd. exact IH. Qed.
Lemma app_w_out w idx mg n t : (forall i, (i < n)%nat -> idx i <> t) -> nth t (app_w w idx mg n) 0 = nth t w 0.
Proof.
  induction n as [|n IH]; intros H; [reflexivity|]. cbn [app_w]. rewrite nth_upd_neq by (apply H; lia). apply IH. intros i Hi. apply H. lia.
Qed.
Lemma app_w_in w idx mg n i : (i < n)%nat -> (forall a b, (a < b < n)%nat -> idx a <> idx b) -> (idx i < length w)%nat ->
  nth (idx i) (app_w w idx mg n) 0 = N.lxor (nth (idx i) w 0) (mg i).
Proof.
  induction n as [|n IH]; intros Hi HD HL; [lia|]. cbn [app_w]. destruct (Nat.eq_dec i n) as [->|Hne].
  - rewrite nth_upd_eq by (rewrite length_app_w; exact HL). f_equal. apply app_w_out. intros a Ha. apply HD. lia.
  - rewrite nth_upd_neq by (intros E; apply (HD i n ltac:(lia)); symmetry; exact E). apply IH; [lia| |exact HL]. intros a b Hab. apply HD. lia.
Qed.
Definition binary (l : list N) : Prop := Forall (fun x => x < 2) l.
Lemma bin_xor x m : x < 2 -> m <= 1 -> N.lxor x m < 2.
Proof. intros. assert (x = 0 \/ x = 1) as [-> | ->] by lia; assert (m = 0 \/ m = 1) as [-> | ->] by lia; cbn; lia. Qed.
Lemma not_bin_xor x m : x < 2 -> 1 < m -> 2 <= N.lxor x m.
Proof.
  intros Hx Hm. destruct (N.lt_ge_cases (N.lxor x m) 2) as [H|H]; [|exact H]. exfalso.
  assert (E : m = N.lxor x (N.lxor x m)) by (rewrite <- N.lxor_assoc, N.lxor_nilpotent, N.lxor_0_l; reflexivity).
  pose proof (bin_xor x (N.lxor x m) Hx ltac:(lia)). lia.
Qed.
Lemma app_w_bin w idx mg n : binary w -> (forall i, (i < n)%nat -> mg i <= 1) -> binary (app_w w idx mg n).
Proof.
  intros HW HM. induction n as [|n IH]; [exact HW|]. cbn [app_w]. specialize (IH ltac:(intros; apply HM; lia)).
  apply Forall_nth. intros t d Ht. rewrite (nth_indep _ d 0) by exact Ht. rewrite length_upd in Ht. rewrite nth_upd.
  assert (HB : forall t, nth t (app_w w idx mg n) 0 < 2).
  { intros k. destruct (Nat.lt_ge_cases k (length (app_w w idx mg n))) as [H|H]; [exact (proj1 (Forall_nth (fun x => x < 2) _) IH k 0 H)|rewrite nth_overflow by exact H; lia]. }
  destruct (_ && _)%bool; [apply bin_xor; [apply HB|apply HM; lia]|apply HB].
Qed.

(** what the two decoders' ways to access a buffer have in common: [view] is the list of the bits *)
Record access_ok (G : gf) (A : bch_access) (ok : list N -> Prop) (view : list N -> list N) : Prop := {
  ao_bin : forall buf, ok buf -> binary (view buf);
  ao_get : forall buf i, ok buf -> (i < length (view buf))%nat -> ba_get A buf i = Ok (nth i (view buf) 0);
  ao_add : forall buf i m, ok buf -> (i < length (view buf))%nat -> m <= 1 ->
    exists buf', ba_add A buf (Z.of_nat i) m = Ok buf' /\ ok buf' /\ view buf' = upd (view buf) i (N.lxor (nth i (view buf) 0) m);
  ao_shift : forall e d, e + N.of_nat d < 2 ^ gf_M G - 1 -> ba_shift A e d = Ok (e + N.of_nat d) }.

Section S.
Variable G : gf.
Hypothesis OK : gf_ok G.
Notation Q := (2 ^ gf_M G).
Notation Q1 := (2 ^ gf_M G - 1).
Notation F := (gf_fld G OK).
Notation I := (inn G OK : N -> car F).
Notation ridx := (ridx G OK).
Notation rv := (rv G OK).
Notation pl := (pl G OK).
Notation al := (al G OK).
Notation Xp := (Xp G OK).
Notation sq := (sq G OK).
Notation smallq := (Forall (fun x => x < Q)).
Add Field FFb1 : (fth (gf_fld G OK)).
Variables NR FCR K NP : nat.
Hypothesis HNR : (1 <= NR)%nat.
Hypothesis HNP : (NR <= NP)%nat.
Hypothesis HK : (K + NP = N.to_nat Q1)%nat.
Hypothesis HK1 : (1 <= K)%nat.
Hypothesis HFCR : (FCR < N.to_nat Q1)%nat.
Notation rho := (rho G OK FCR).
Lemma HNQ : (NR < N.to_nat Q1)%nat. Proof. clear - HK HK1 HNP. lia. Qed.
Variables (A : bch_access) (ok : list N -> Prop) (view : list N -> list N).
Hypothesis AO : access_ok G A ok view.

Lemma bit_small l : binary l -> smallq l.
Proof. apply Forall_impl. intros x Hx. pose proof (Q1' G OK). assert (x = 0 \/ x = 1) as [-> | ->] by lia; lia. Qed.

Lemma bupdate_ok poly b e syn (a : nat -> car F) : ok poly -> (b <= e)%nat -> (e <= length (view poly))%nat -> length syn = NR ->
  (forall i, (i < NR)%nat -> exists x, nth i syn None = Some x /\ rv x (a i)) ->
  exists syn', bch_update A G NR FCR poly b e syn = Ok syn' /\ length syn' = NR /\
    forall i, (i < NR)%nat -> exists x, nth i syn' None = Some x /\ rv x (hor (rho i) (a i) (pl (firstn (e - b) (skipn b (view poly))))).
Proof.
  intros OKP Hbe He LS HS.
  destruct (update_ok G OK NR FCR HNR HNQ HFCR (view poly) b e syn a (bit_small _ (ao_bin _ _ _ _ AO poly OKP)) Hbe He LS HS) as (s' & E & H).
  exists s'. split; [|exact H]. rewrite <- E. unfold bch_update, rs_update.
  assert (EX : forall n j (s : list (option N)), (j + n <= length (view poly))%nat ->
     loop n j (fun j syn => coeff <- ba_get A poly j ;; root <- mkIndexI G FCR ;; pe <- mkIndexI G 1 ;;
       '(syn, _) <- for_up 0 NR (fun i '(syn, root) => s <- rdu syn i ;; x <- fma_ivv G root s coeff ;; syn <- wru syn i x ;; root <- i_mul_assign G root pe ;; Ok (syn, root)) (syn, root) ;; Ok syn) s =
     loop n j (fun j syn => coeff <- rd (view poly) j ;; root <- mkIndexI G FCR ;; pe <- mkIndexI G 1 ;;
       '(syn, _) <- for_up 0 NR (fun i '(syn, root) => s <- rdu syn i ;; x <- fma_ivv G root s coeff ;; syn <- wru syn i x ;; root <- i_mul_assign G root pe ;; Ok (syn, root)) (syn, root) ;; Ok syn) s).
  { induction n as [|n IH]; intros j s Hn; [reflexivity|]. cbn [loop]. rewrite (ao_get _ _ _ _ AO poly j OKP) by lia. rewrite (rd_nth (view poly) j 0) by lia.
    match goal with |- bind ?x _ = bind ?y _ => change x with y; destruct y as [s1| | |] end; [|reflexivity..]. cbn [bind]. apply IH. lia. }
  unfold for_up at 1 4. rewrite EX by lia. reflexivity.
Qed.

Lemma bsyndromes_ok data parity syn len : ok data -> ok parity -> (NP <= length (view parity))%nat -> (1 <= len <= K)%nat -> (len <= length (view data))%nat -> length syn = NR ->
  let w := firstn len (view data) ++ firstn NP (view parity) in
  exists syn' nonzero, bch_syndromes A G K NP NR FCR data parity syn len = Ok (syn', nonzero) /\ length syn' = NR /\
    (forall i, (i < NR)%nat -> exists x, nth i syn' None = Some x /\ rv x (hor (rho i) f0 (pl w))) /\
    ((nonzero = 0%nat <-> forall i, (i < NR)%nat -> hor (rho i) f0 (pl w) = f0)).
Proof.
  intros OD OP LP Hlen Hdata LS w. unfold bch_syndromes. replace ((0 <? len) && (len <=? K))%nat%bool with true by lia. cbn [assert_ bind].
  rewrite (ao_get _ _ _ _ AO data 0 OD) by lia. cbn [bind]. pose proof (bit_small _ (ao_bin _ _ _ _ AO _ OD)) as SD.
  set (c := nth 0 (view data) 0). assert (Rc : rv c (nth 0 (pl (view data)) f0)).
  { rewrite (nth_pl G OK). apply rv_I. apply small_nth; [exact OK|exact SD]. }
  destruct (fill_u (fun i x => rv x (nth 0 (pl (view data)) f0)) 0 NR (fun i syn => wru syn i c) syn) as (s0 & E0 & L0 & V0 & _).
  { lia. } { lia. } { intros i u Hi. exists c. auto. }
  rewrite E0. cbn [bind].
  destruct (bupdate_ok data 1 len s0 (fun _ => nth 0 (pl (view data)) f0)) as (s1 & E1 & L1 & V1); [exact OD|lia|lia|lia| |].
  { intros i Hi. apply V0. lia. }
  rewrite E1. cbn [bind].
  destruct (bupdate_ok parity 0 NP s1 (fun i => hor (rho i) (nth 0 (pl (view data)) f0) (pl (firstn (len - 1) (skipn 1 (view data)))))) as (s2 & E2 & L2 & V2); [exact OP|lia|lia|lia|exact V1|].
  rewrite E2. cbn [bind].
  assert (V : forall i, (i < NR)%nat -> exists x, nth i s2 None = Some x /\ rv x (hor (rho i) f0 (pl w))).
  { intros i Hi. destruct (V2 i Hi) as (x & Ex & Rx). exists x. split; [exact Ex|]. rewrite Nat.sub_0_r, skipn_O in Rx.
    unfold w, Proof_rs1.pl in *. rewrite map_app, hor_app. destruct (view data) as [|d vd]; [exfalso; cbn [length] in Hdata; clear -Hlen Hdata; lia|]. replace len with (S (len - 1)) by lia. cbn [firstn map hor].
    cbn [skipn map nth] in Rx. assert (ED : forall y : car F, fadd (fmul (rho i) f0) y = y) by (intros y; ring). rewrite ED. exact Rx. }
  edestruct (for_up_inv (fun n (c : nat) => (c = 0%nat <-> forall i, (i < n)%nat -> hor (rho i) f0 (pl w) = f0))) as (nonzero & E & HI).
  4: { rewrite E. cbn [bind]. exists s2, nonzero. split; [reflexivity|]. split; [exact L2|]. split; [exact V|exact HI]. }
  - lia.
  - intros n k Hn IH. cbv beta. destruct (V n ltac:(lia)) as (x & Ex & Rx). rewrite (rdu_nth _ _ _ Ex). cbn [bind]. eexists. split; [reflexivity|].
    destruct (rv_nz G OK _ _ Rx) as [(Nx & Zx)|(Nx & Zx)]; rewrite Nx.
    + rewrite IH. split; intros H i Hi; [destruct (Nat.eq_dec i n) as [->|]; [exact Zx|apply H; lia]|apply H; lia].
    + split; [discriminate|]. intros H. exfalso. apply Zx. apply H. lia.
  - split; [intros; lia|reflexivity].
Qed.

Section Sim.
Variables (imap data parity er : list N) (f len : nat).
Hypothesis HI : imap_ok G OK imap.
Hypothesis OD : ok data.
Hypothesis OP : ok parity.
Hypothesis LP : (NP <= length (view parity))%nat.
Hypothesis Hlen : (1 <= len <= K)%nat.
Hypothesis Hdata : (len <= length (view data))%nat.
Hypothesis Hf : (f <= NR)%nat.
Hypothesis LE : (f <= length er)%nat.
Hypothesis HE : forall i, (i < f)%nat -> nth i er 0 < N.of_nat (len + NP).
Notation w := (firstn len (view data) ++ firstn NP (view parity)).
Notation lr := (len + NP - NR)%nat.
Notation off := (K - len)%nat.

Definition bch_result (w'' : list N) (er' : list N) (z : Z) : Prop :=
  (binary w'' -> exists data' parity', bch_decode A G K NP NR FCR imap data parity er f len = Ok (data', parity', er', z) /\ ok data' /\ ok parity' /\
     firstn len (view data') ++ firstn NP (view parity') = w'' /\ skipn len (view data') = skipn len (view data) /\ skipn NP (view parity') = skipn NP (view parity)) /\
  (~ binary w'' -> bch_decode A G K NP NR FCR imap data parity er f len = Ok (data, parity, er', (-1)%Z)).

Lemma sim : exists d'' p'' er' z, rs_decode G NR FCR imap (firstn lr w) (skipn lr w) er f lr = Ok (d'', p'', er', z) /\
  length d'' = lr /\ length p'' = NR /\ bch_result (d'' ++ p'') er' z.
Proof.
  assert (Lw : length w = (len + NP)%nat) by (rewrite app_length, !firstn_length; lia).
  assert (BW : binary w) by (apply Forall_app; split; apply Forall_firstn'; apply (ao_bin _ _ _ _ AO); assumption).
  assert (SW : smallq w) by (apply bit_small; exact BW).
  assert (NRQ := HNQ).
  assert (EK : rs_K G NR = (N.to_nat Q1 - NR)%nat) by (unfold rs_K; change (gf_N G) with Q1; lia).
  assert (EO : (rs_K G NR - lr = off)%nat) by lia.
  unfold bch_result, rs_decode, bch_decode. set (KR := rs_K G NR) in *.
  set (dr := firstn lr w). set (pr := skipn lr w).
  assert (Ldr : length dr = lr) by (unfold dr; rewrite firstn_length; lia). assert (Lpr : length pr = NR) by (unfold pr; rewrite skipn_length; lia).
  assert (EW : dr ++ pr = w) by apply firstn_skipn.
  assert (SD : smallq dr) by (unfold dr; apply Forall_firstn'; exact SW).
  assert (SP : smallq pr) by (rewrite <- EW in SW; apply Forall_app in SW; apply SW).
  replace (f <=? NR)%nat with true by lia. replace ((0 <? len) && (len <=? K))%nat%bool with true by lia. replace ((0 <? lr) && (lr <=? KR))%nat%bool with true by lia. cbn [assert_ bind].
  set (ers := if (negb (f =? 0) && (len <? K))%nat%bool then map (fun e => e + N.of_nat off) (firstn f er) ++ skipn f er else er).
  assert (HER : length ers = length er /\ forall i, (i < f)%nat -> nth i ers 0 = nth i er 0 + N.of_nat off).
  { unfold ers. destruct (Nat.eqb_spec f 0) as [F0|F0]; cbn [negb andb]; [split; [reflexivity|intros; lia]|].
    destruct (Nat.ltb_spec len K) as [H|H]; [|split; [reflexivity|intros; lia]].
    split; [rewrite app_length, map_length, firstn_length, skipn_length; lia|]. intros i Hi.
    rewrite app_nth1 by (rewrite map_length, firstn_length; lia). rewrite (nth_indep _ 0 (0 + N.of_nat off)) by (rewrite map_length, firstn_length; lia).
    rewrite (map_nth (fun e => e + N.of_nat off)), nth_firstn'. replace (i <? f)%nat with true by lia. reflexivity. }
  assert (E1 : (if (negb (f =? 0) && (len <? K))%nat%bool then for_up 0 f (fun i erasures => e <- rd erasures i ;; k <- ba_shift A e off ;; wr erasures i k) er else Ok er) = Ok ers).
  { unfold ers. destruct (negb (f =? 0) && (len <? K))%nat%bool; [|reflexivity]. apply (shift_loop (fun e => ba_shift A e off) er f (N.of_nat (len + NP))); [|exact HE|exact LE].
    intros e He. apply (ao_shift _ _ _ _ AO). lia. }
  assert (E2 : (if (negb (f =? 0) && (lr <? KR))%nat%bool then for_up 0 f (fun i erasures => e <- rd erasures i ;; k <- mkIndexI G (N.to_nat e + KR - lr) ;; wr erasures i k) er else Ok er) = Ok ers).
  { replace (lr <? KR)%nat with (len <? K)%nat by lia. unfold ers. destruct (negb (f =? 0) && (len <? K))%nat%bool; [|reflexivity]. apply (shift_loop (fun e => mkIndexI G (N.to_nat e + KR - lr)) er f (N.of_nat (len + NP))); [|exact HE|exact LE].
    intros e He. rewrite (mkI G OK) by lia. f_equal. lia. }
  destruct HER as (LER & HER). rewrite E1, E2. cbn [bind]. clear E1 E2.
  destruct (bsyndromes_ok data parity (uninit N NR) len OD OP LP Hlen Hdata) as (s0 & nonzero & ES & LS0 & VS & NZ). { unfold uninit. apply repeat_length. }
  destruct (syndromes_ok G OK NR FCR HNR HNQ HFCR dr pr (uninit N NR) lr SD SP Lpr) as (s1 & nonzero1 & ES1 & LS1 & VS1 & NZ1). { lia. } { lia. } { unfold uninit. apply repeat_length. }
  rewrite (firstn_all2 dr) in VS1, NZ1 by lia. rewrite EW in VS1, NZ1.
  assert (s1 = s0) as ->.
  { apply (list_ext _ _ None); [lia|]. intros i Hi. destruct (VS i ltac:(lia)) as (x & Ex & Rx). destruct (VS1 i ltac:(lia)) as (y & Ey & Ry). rewrite Ex, Ey. f_equal. apply (rv_inj G OK _ _ _ Ry Rx). }
  rewrite ES, ES1. cbn [bind].
  assert (NN : (nonzero1 =? 0)%nat = (nonzero =? 0)%nat) by (destruct (Nat.eqb_spec nonzero 0), (Nat.eqb_spec nonzero1 0); tauto). rewrite NN. clear NN NZ1 VS1 ES ES1 nonzero1.
  assert (SAME : forall z, exists d'' p'' er' z', Ok (dr, pr, ers, z) = Ok (d'', p'', er', z') /\ length d'' = lr /\ length p'' = NR /\
    ((binary (d'' ++ p'') -> exists data' parity', Ok (data, parity, ers, z) = Ok (data', parity', er', z') /\ ok data' /\ ok parity' /\
     firstn len (view data') ++ firstn NP (view parity') = d'' ++ p'' /\ skipn len (view data') = skipn len (view data) /\ skipn NP (view parity') = skipn NP (view parity)) /\
     (~ binary (d'' ++ p'') -> Ok (data, parity, ers, z) = Ok (data, parity, er', (-1)%Z)))).
  { intros z. exists dr, pr, ers, z. split; [reflexivity|]. split; [exact Ldr|]. split; [exact Lpr|]. split.
    - intros _. exists data, parity. split; [reflexivity|]. split; [exact OD|]. split; [exact OP|]. split; [symmetry; exact EW|]. split; reflexivity.
    - intros NB. exfalso. apply NB. rewrite EW. exact BW. }
  destruct (Nat.eqb_spec nonzero 0) as [Z0|Z0]; [apply SAME|].
  destruct (settled_ok NR s0 (fun i x => rv x (syn G OK FCR w i))) as (s & Es & Ls & Vs). { intros i Hi. apply VS. lia. }
  rewrite Es. cbn [bind].
  assert (SS : smallq s) by (apply small_intro; intros i Hi; apply Vs; lia).
  assert (QS : forall i, (i < NR)%nat -> sq s i = syn G OK FCR w i). { intros i Hi. unfold Proof_rs1.sq. rewrite (nth_pl G OK). apply Vs. exact Hi. }
  assert (SN : exists i, (i < NR)%nat /\ syn G OK FCR w i <> f0).
  { clear - NZ Z0. assert (D : forall n, (n <= NR)%nat -> (exists i, (i < n)%nat /\ syn G OK FCR w i <> f0) \/ (forall i, (i < n)%nat -> syn G OK FCR w i = f0)).
    { induction n as [|n IH]; intros Hn; [right; intros; lia|]. destruct (IH ltac:(lia)) as [(i & Hi & H)|H]; [left; exists i; split; [lia|exact H]|].
      destruct (fdec (syn G OK FCR w n) f0) as [E|E]; [|left; exists n; auto]. right. intros i Hi. destruct (Nat.eq_dec i n) as [->|]; [exact E|apply H; lia]. }
    destruct (D NR (le_n _)) as [H|H]; [exact H|]. exfalso. apply Z0. apply NZ. exact H. }
  destruct (correction_ok G OK NR FCR HNR HNQ HFCR imap s (uninit N NR) (uninit N NR) ers f HI SS Ls) as (z0 & locs & mags & C & L & deg & EC & LLo & LMa & CO).
  { destruct SN as (i & Hi & H). exists i. rewrite QS by exact Hi. auto. } { unfold uninit. apply repeat_length. } { unfold uninit. apply repeat_length. } { exact Hf. } { lia. }
  { intros i Hi. rewrite HER by exact Hi. pose proof (HE i Hi). lia. }
  rewrite EC. cbn [bind].
  destruct (Z.leb_spec z0 0) as [HZ|HZ]; [apply SAME|].
  pose proof CO as (_ & _ & _ & HdL & _ & _ & _ & _ & [Ez|(Ez & pos & FO & VM)] & _); [lia|].
  assert (Hdeg : (1 <= deg)%nat) by lia. rewrite Ez, Nat2Z.id. pose proof FO as (LPo & NDp & FRp & HLp). rewrite EO.
  assert (EBAD : exists bad, for_up 0 deg (fun i bad => l <- rdu locs i ;; Ok (bad || (N.to_nat l <? off)%nat)%bool) false = Ok bad /\ (bad = false -> Forall (fun p => (off <= p)%nat) pos)).
  { edestruct (for_up_inv (fun n bad => (bad = false -> forall i, (i < n)%nat -> (off <= nth i pos 0)%nat))) as (bad & E & H2).
    4: { exists bad. split; [exact E|].
         intros B. apply Forall_forall. intros p Hp. apply (In_nth _ _ 0%nat) in Hp. destruct Hp as (i & Hi & <-). apply H2; [exact B|lia]. }
    - lia.
    - intros n bad Hn H2. cbv beta. rewrite (rdu_nth _ _ _ (HLp n ltac:(lia))). cbn [bind]. eexists. split; [reflexivity|]. rewrite Nat2N.id.
      destruct bad; cbn [orb]; [discriminate|].
      destruct (Nat.ltb_spec (nth n pos 0%nat) off) as [B|B]; [discriminate|]. intros _ i Hi. destruct (Nat.eq_dec i n) as [->|]; [exact B|apply H2; [reflexivity|lia]].
    - intros; lia. }
  destruct EBAD as (bad & EBD & HB2). rewrite EBD. cbn [bind]. destruct bad; [apply SAME|]. specialize (HB2 eq_refl).
  assert (HP : forall i, (i < deg)%nat -> (off <= nth i pos 0%nat < N.to_nat Q1)%nat).
  { intros i Hi. split; [apply (proj1 (Forall_nth (fun p => (off <= p)%nat) pos) HB2); lia|]. apply (proj1 (Forall_nth (isroot G OK C) pos) FRp). lia. }
  set (mg := fun i => match nth i mags None with Some y => y | None => 0 end). set (ix := fun i => (nth i pos 0%nat - off)%nat).
  assert (HM : forall i, (i < deg)%nat -> rdu mags i = Ok (mg i) /\ mg i < Q).
  { intros i Hi. destruct (VM i Hi) as (y & Ey & Ry). unfold mg. rewrite (rdu_nth _ _ _ Ey), Ey. split; [reflexivity|apply Ry]. }
  assert (HL : forall i, (i < deg)%nat -> rdu locs i = Ok (N.of_nat (off + ix i))).
  { intros i Hi. rewrite (rdu_nth _ _ _ (HLp i Hi)). do 2 f_equal. unfold ix. pose proof (HP i Hi). lia. }
  assert (HIX : forall i, (i < deg)%nat -> (ix i < len + NP)%nat) by (intros i Hi; pose proof (HP i Hi); unfold ix; lia).
  assert (HD : forall a b, (a < b < deg)%nat -> ix a <> ix b).
  { intros a b Hab E. pose proof (HP a ltac:(lia)). pose proof (HP b ltac:(lia)). unfold ix in E. assert (E' : nth a pos 0%nat = nth b pos 0%nat) by lia. apply (proj1 (NoDup_nth pos 0%nat) NDp) in E'; lia. }
  (* the corrections counter *)
  assert (ECNT : exists c, for_up 0 deg (fun i c => m <- rdu mags i ;; Ok (if nz m then S c else c)) 0%nat = Ok c).
  { edestruct (for_up_inv (fun n (c : nat) => True)) as (c & E & _). 4: { exists c. exact E. } - lia. - intros n c Hn _. cbv beta. rewrite (proj1 (HM n ltac:(lia))). cbn [bind]. eexists. split; [reflexivity|exact Logic.I]. - exact Logic.I. }
  destruct ECNT as (c & EC2).
  (* the Reed-Solomon side *)
  edestruct (for_up_inv (fun n '((d, p) : list N * list N) => length d = lr /\ length p = NR /\ smallq d /\ smallq p /\ d ++ p = app_w w ix mg n)) as (st & ER & HR).
  4: { rewrite ER. destruct st as [d'' p'']. destruct HR as (R1 & R2 & _ & _ & R5). cbn [bind]. rewrite EC2. cbn [bind]. exists d'', p'', ers, (Z.of_nat c). split; [reflexivity|]. split; [exact R1|]. split; [exact R2|].
    rewrite R5. clear ER d'' p'' R1 R2 R5.
    edestruct (for_up_inv (fun n bad => (bad = true -> exists i, (i < n)%nat /\ 1 < mg i) /\ (bad = false -> forall i, (i < n)%nat -> mg i <= 1))) as (bad & EB & HB & HB').
    4: { rewrite EB. cbn [bind]. destruct bad.
      - destruct (HB eq_refl) as (i & Hi & Hm). split; [|reflexivity]. intros BI. exfalso.
        pose proof (app_w_in w ix mg deg i Hi HD ltac:(rewrite Lw; apply HIX; exact Hi)) as EI.
        pose proof (proj1 (Forall_nth (fun x => x < 2) _) BI (ix i) 0 ltac:(rewrite length_app_w, Lw; apply HIX; exact Hi)) as B1. cbv beta in B1.
        pose proof (not_bin_xor (nth (ix i) w 0) (mg i) ltac:(apply (proj1 (Forall_nth (fun x => x < 2) _) BW); rewrite Lw; apply HIX; exact Hi) Hm). lia.
      - specialize (HB' eq_refl). split; [|intros NB; exfalso; apply NB; apply app_w_bin; [exact BW|exact HB']]. intros _.
        edestruct (for_up_inv (fun n '((d, p) : list N * list N) => ok d /\ ok p /\ length (view d) = length (view data) /\ length (view p) = length (view parity) /\ firstn len (view d) ++ firstn NP (view p) = app_w w ix mg n /\
           skipn len (view d) = skipn len (view data) /\ skipn NP (view p) = skipn NP (view parity))) as (st & ER & HR).
        4: { rewrite ER. destruct st as [d' p']. cbn [bind]. exists d', p'. split; [reflexivity|]. tauto. }
        + lia.
        + intros n [d p] Hn (A1 & A2 & A3 & A4 & A5 & A6 & A7). cbv beta. rewrite (HL n ltac:(lia)), (proj1 (HM n ltac:(lia))). cbn [bind].
          pose proof (HIX n ltac:(lia)) as Hx. replace (Z.of_N (N.of_nat (off + ix n)) + Z.of_nat len - Z.of_nat K)%Z with (Z.of_nat (ix n)) by lia.
          assert (LF : length (firstn len (view d)) = len) by (rewrite firstn_length; lia). assert (LG : length (firstn NP (view p)) = NP) by (rewrite firstn_length; lia).
          destruct (Z.ltb_spec (Z.of_nat (ix n)) (Z.of_nat len)) as [B|B].
          * destruct (ao_add _ _ _ _ AO d (ix n) (mg n) A1 ltac:(lia) ltac:(apply HB'; lia)) as (d' & Ed & Od & Vd). rewrite Ed. cbn [bind]. eexists. split; [reflexivity|].
            split; [exact Od|]. split; [exact A2|]. rewrite Vd. split; [rewrite length_upd; exact A3|]. split; [exact A4|]. split; [|split; [rewrite skipn_upd by lia; exact A6|exact A7]].
            cbn [app_w]. rewrite <- A5. apply (list_ext _ _ 0); [rewrite length_upd, !app_length, !firstn_length, length_upd; reflexivity|]. intros t Ht.
            change (firstn len (upd (view d) (ix n) (N.lxor (nth (ix n) (view d) 0) (mg n))) ++ firstn NP (view p)) with (word len (upd (view d) (ix n) (N.lxor (nth (ix n) (view d) 0) (mg n))) (firstn NP (view p))).
            rewrite word_upd_data by lia. unfold word. f_equal. f_equal. f_equal. rewrite app_nth1 by lia. rewrite nth_firstn'. replace (ix n <? len)%nat with true by lia. reflexivity.
          * replace (Z.of_nat (ix n) - Z.of_nat len)%Z with (Z.of_nat (ix n - len)) by lia.
            destruct (ao_add _ _ _ _ AO p (ix n - len) (mg n) A2 ltac:(lia) ltac:(apply HB'; lia)) as (p' & Ep & Op & Vp). rewrite Ep. cbn [bind]. eexists. split; [reflexivity|].
            split; [exact A1|]. split; [exact Op|]. rewrite Vp. split; [exact A3|]. split; [rewrite length_upd; exact A4|]. split; [|split; [exact A6|rewrite skipn_upd by lia; exact A7]].
            cbn [app_w]. rewrite <- A5. apply (list_ext _ _ 0); [rewrite length_upd, !app_length, !firstn_length, length_upd; reflexivity|]. intros t Ht. rewrite nth_upd, !app_length, LF, LG.
            replace (ix n <? len + NP)%nat with true by lia. rewrite andb_true_r. rewrite (app_nth2 _ _ 0 (n := ix n)) by lia. rewrite LF, (nth_firstn' _ _ (ix n - len)%nat). replace (ix n - len <? NP)%nat with true by lia.
            destruct (Nat.lt_ge_cases t len) as [T|T].
            -- rewrite !app_nth1 by lia. destruct (Nat.eqb_spec (ix n) t); [lia|reflexivity].
            -- rewrite !app_nth2 by lia. rewrite LF, !nth_firstn', nth_upd. rewrite app_length, !firstn_length, length_upd, A4 in Ht. replace (t - len <? NP)%nat with true by lia. replace (ix n - len <? length (view p))%nat with true by lia. rewrite andb_true_r.
               replace (ix n - len =? t - len)%nat with (ix n =? t)%nat by lia. reflexivity.
        + split; [exact OD|]. split; [exact OP|]. repeat split; reflexivity.
      }
    - lia.
    - intros n bad Hn (H1 & H2). cbv beta. rewrite (proj1 (HM n ltac:(lia))). cbn [bind]. eexists. split; [reflexivity|]. destruct bad; cbn [orb].
      + split; [intros _|discriminate]. destruct (H1 eq_refl) as (i & Hi & H). exists i. split; [lia|exact H].
      + destruct (N.ltb_spec 1 (mg n)) as [B|B].
        * split; [intros _; exists n; split; [lia|exact B]|discriminate].
        * split; [discriminate|]. intros _ i Hi. destruct (Nat.eq_dec i n) as [->|]; [exact B|apply H2; [reflexivity|lia]].
    - split; [discriminate|]. intros; lia. }
  - lia.
  - intros n [d p] Hn (A1 & A2 & A3 & A4 & A5). cbv beta. rewrite (HL n ltac:(lia)), (proj1 (HM n ltac:(lia))). cbn [bind]. pose proof (proj2 (HM n ltac:(lia))) as Hm.
    pose proof (HIX n ltac:(lia)) as Hx. replace (Z.of_N (N.of_nat (off + ix n)) + Z.of_nat lr - Z.of_nat KR)%Z with (Z.of_nat (ix n)) by lia.
    assert (ADD : forall x, x < Q -> v_add_assign G x (mg n) = Ok (N.lxor x (mg n)) /\ N.lxor x (mg n) < Q).
    { intros x Hxq. destruct (rv_add G OK x (mg n) (I x) (I (mg n)) (rv_I G OK _ Hxq) (rv_I G OK _ Hm)) as (v & _ & Ev & Rv). assert (v = N.lxor x (mg n)) as <-.
      { apply (I_inj G OK); [apply Rv|apply lxor_lt; assumption|]. rewrite I_xor by assumption. apply Rv. } split; [exact Ev|apply Rv]. }
    destruct (Z.ltb_spec (Z.of_nat (ix n)) (Z.of_nat lr)) as [B|B].
    + rewrite (rdZ_nth d _ 0) by lia. cbn [bind]. rewrite Nat2Z.id. destruct (ADD (nth (ix n) d 0) (small_nth G OK d _ A3)) as (EA & HA). rewrite EA. cbn [bind].
      rewrite wrZ_Ok by lia. cbn [bind]. rewrite Nat2Z.id. eexists. split; [reflexivity|]. split; [rewrite length_upd; exact A1|]. split; [exact A2|]. split; [apply small_upd; [exact OK|exact A3|exact HA]|].
      split; [exact A4|]. cbn [app_w]. rewrite <- A5. rewrite app_nth1 by lia. pose proof (word_upd_data lr d p (ix n) (N.lxor (nth (ix n) d 0) (mg n)) ltac:(lia) ltac:(lia)) as WU.
      unfold word in WU. rewrite !firstn_all2 in WU by (rewrite ?length_upd; lia). exact WU.
    + replace (Z.of_nat (ix n) - Z.of_nat lr)%Z with (Z.of_nat (ix n - lr)) by lia. rewrite (rdZ_nth p _ 0) by lia. cbn [bind]. rewrite Nat2Z.id.
      destruct (ADD (nth (ix n - lr) p 0) (small_nth G OK p _ A4)) as (EA & HA). rewrite EA. cbn [bind].
      rewrite wrZ_Ok by lia. cbn [bind]. rewrite Nat2Z.id. eexists. split; [reflexivity|]. split; [exact A1|]. split; [rewrite length_upd; exact A2|]. split; [exact A3|]. split; [apply small_upd; [exact OK|exact A4|exact HA]|].
      cbn [app_w]. rewrite <- A5. rewrite app_nth2 by lia. rewrite A1. pose proof (word_upd_parity lr d p (ix n - lr) (N.lxor (nth (ix n - lr) p 0) (mg n)) ltac:(lia) ltac:(lia)) as WU.
      unfold word in WU. rewrite !firstn_all2 in WU by lia. replace (lr + (ix n - lr))%nat with (ix n) in WU by lia. exact WU.
  - split; [exact Ldr|]. split; [exact Lpr|]. split; [exact SD|]. split; [exact SP|exact EW].
Qed.
End Sim.
End S.
