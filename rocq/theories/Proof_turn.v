(** Adding a codeword to what the short decoders receive *)
From Coq Require Import ZifyBool ZifyNat ZifyN.
From Verif Require Import Cpp Lib_list Model_sbch Spec_gf Spec_wht Spec_sbch Lib_gf2lin Lib_gf2poly Lib_gf Lib_wht Proof_wht Proof_sbch Proof_sbch2.
Local Open Scope N_scope.

Section S.
Variables (n k : nat) (g : N).
Hypothesis Hk : (1 <= k < n)%nat.
Hypothesis Hn : (n <= 31)%nat.
Hypothesis Hp : (n - k <= 15)%nat.
Hypothesis HG : has_degree g (N.of_nat (n - k)).
Variable t : nat.
Notation parOK := (parOK n k g).
Notation isrem := (isrem n k g).
Notation einv := (einv n k g t).
Lemma hard_form par err x D : parOK par -> einv D err -> x < 2 ^ N.of_nat n ->
  exists syn e, isrem x syn /\ nth (N.to_nat syn) err 0%Z = Z.of_N e /\ sb_hard n k par err (Z.of_N x) = Ok (if negb (e =? 0) || (syn =? 0) then Z.of_N (N.lxor x e) else (-1)%Z).
Proof.
  intros HP ((L & V) & C) Hx. unfold sb_hard. rewrite Z_shiftr_N.
  set (hi := N.shiftr x (N.of_nat (n - k))).
  assert (Bhi : hi < 2 ^ N.of_nat k).
  { apply tb_lt. intros i Hi. unfold hi. rewrite N.shiftr_spec'. apply tb_ge with (N.of_nat n); [exact Hx|lia]. }
  destruct (rd_par n k g Hk Hn Hp par hi HP Bhi) as (r & E & R). rewrite E. cbn [bind]. pose proof R as (Br & _).
  rewrite Z_lxor_N. replace (2 ^ Z.of_nat (n - k) - 1)%Z with (Z.of_N (N.ones (N.of_nat (n - k)))).
  2: { rewrite N.ones_equiv, N.pred_sub, Z_pow2_N. pose proof (pow2_nz (N.of_nat (n - k))). lia. }
  rewrite Z_land_N, N.land_ones. set (lo := x mod 2 ^ N.of_nat (n - k)).
  assert (Blo : lo < 2 ^ N.of_nat (n - k)) by (apply N.mod_lt, N.pow_nonzero; discriminate).
  assert (Ex : x = N.lxor (N.shiftl hi (N.of_nat (n - k))) lo).
  { apply N.bits_inj. intros i. rewrite N.lxor_spec. unfold lo, hi. destruct (N.lt_ge_cases i (N.of_nat (n - k))).
    - rewrite N.mod_pow2_bits_low, N.shiftl_spec_low by assumption. symmetry. apply xorb_false_l.
    - rewrite N.mod_pow2_bits_high, N.shiftl_spec_high', N.shiftr_spec', xorb_false_r by assumption. f_equal. lia. }
  assert (ES : N.lxor r x mod 2 ^ N.of_nat (n - k) = N.lxor r lo).
  { apply N.bits_inj. intros i. rewrite N.lxor_spec. unfold lo. destruct (N.lt_ge_cases i (N.of_nat (n - k))).
    - rewrite !N.mod_pow2_bits_low, N.lxor_spec by assumption. reflexivity.
    - rewrite !N.mod_pow2_bits_high by assumption. rewrite (tb_ge r (N.of_nat (n - k)) i) by assumption. reflexivity. }
  rewrite ES. set (syn := N.lxor r lo).
  assert (RS : isrem x syn). { rewrite Ex. apply isrem_lxor; [exact R|apply isrem_small; exact Blo]. }
  pose proof RS as (BS & _). rewrite <- pow2_of_nat in BS.
  rewrite (rdZ_nth err (Z.of_N syn) 0%Z) by lia. cbn [bind]. rewrite to_nat_of_N.
  destruct (V (N.to_nat syn) ltac:(lia)) as (e & Ee & He). rewrite Ee. exists syn, e. split; [exact RS|]. split; [exact Ee|].
  rewrite Z_lxor_N. do 2 f_equal. destruct (N.eqb_spec e 0), (Z.eqb_spec (Z.of_N e) 0), (N.eqb_spec syn 0), (Z.eqb_spec (Z.of_N syn) 0); try reflexivity; lia.
Qed.
Lemma hard_turn par err D x c : parOK par -> einv D err -> x < 2 ^ N.of_nat n -> codeword n g c ->
  exists r, sb_hard n k par err (Z.of_N x) = Ok r /\ (-1 <= r)%Z /\ sb_hard n k par err (Z.of_N (N.lxor x c)) = Ok (if (r =? -1)%Z then (-1)%Z else Z.lxor r (Z.of_N c)).
Proof.
  intros HP HE Hx HC. pose proof HC as HC'. apply (codeword_isrem n k g) in HC'. destruct HC' as (Bc & Rc).
  destruct (hard_form par err x D HP HE Hx) as (s & e & R & En & E).
  destruct (hard_form par err (N.lxor x c) D HP HE ltac:(apply lxor_lt; assumption)) as (s' & e' & R' & En' & E').
  assert (s' = s) as ->. { apply (isrem_unique n k g Hk Hn Hp HG (N.lxor x c)); [exact R'|]. rewrite <- (N.lxor_0_r s). apply isrem_lxor; assumption. }
  assert (e' = e) as -> by lia. rewrite E, E'. eexists. split; [reflexivity|]. split; [destruct (_ || _); lia|]. f_equal. destruct (_ || _); [|reflexivity].
  destruct (Z.eqb_spec (Z.of_N (N.lxor x e)) (-1)); [lia|]. rewrite Z_lxor_N. f_equal. rewrite !N.lxor_assoc. f_equal. apply N.lxor_comm.
Qed.
End S.

(** ** maximum likelihood decoding *)
Local Open Scope Z_scope.
(** the soft values of [soft], multiplied by the signs [cw] *)
Definition turned (cw soft soft2 : list Z) : Prop := length cw = length soft /\ length soft2 = length soft /\ forall i, (i < length soft)%nat -> nth i soft2 0 = nth i cw 0 * nth i soft 0.
Lemma dot_turn : forall a a2 cw soft soft2, turned cw soft soft2 -> length a = length soft -> length a2 = length soft ->
  (forall i, (i < length soft)%nat -> nth i a2 0 = nth i a 0 * nth i cw 0) -> (forall i, (i < length soft)%nat -> nth i cw 0 * nth i cw 0 = 1) -> dot a2 soft2 = dot a soft.
Proof.
  induction a as [|x a IH]; intros [|y a2] cw [|s soft] [|s2 soft2] (L1 & L2 & T) La La2 HA HC; cbn [length] in *; try discriminate; try reflexivity. destruct cw as [|z cw]; [discriminate|]. cbn [dot].
  rewrite (IH a2 cw soft soft2); cbn [length] in *; try lia.
  - pose proof (HA 0%nat ltac:(lia)) as A. pose proof (HC 0%nat ltac:(lia)) as B. pose proof (T 0%nat ltac:(lia)) as D. cbn [nth] in A, B, D. subst y s2. f_equal. replace (x * z * (z * s)) with (x * s * (z * z)) by ring. rewrite B. ring.
  - split; [lia|]. split; [lia|]. intros i Hi. apply (T (S i)). lia.
  - intros i Hi. apply (HA (S i)). lia.
  - intros i Hi. apply (HC (S i)). lia.
Qed.
Section ML.
Variables (enc : N -> list Z) (K L : nat) (m0 : N).
Hypothesis LE : forall m, length (enc m) = L.
Hypothesis SG : forall m i, (i < L)%nat -> nth i (enc m) 0 * nth i (enc m) 0 = 1.
Hypothesis MU : forall m m' i, (m < 2 ^ N.of_nat K)%N -> (m' < 2 ^ N.of_nat K)%N -> (i < L)%nat -> nth i (enc (N.lxor m m')) 0 = nth i (enc m) 0 * nth i (enc m') 0.
Hypothesis H0 : (m0 < 2 ^ N.of_nat K)%N.
Variables soft soft2 : list Z.
Hypothesis LS : length soft = L.
Hypothesis T : turned (enc m0) soft soft2.
Lemma dot_enc m : (m < 2 ^ N.of_nat K)%N -> dot (enc (N.lxor m m0)) soft2 = dot (enc m) soft.
Proof. intros Hm. apply (dot_turn _ _ (enc m0)); rewrite ?LE, ?LS; auto. Qed.
Lemma most_turn m : most_likely enc (2 ^ N.of_nat K) soft m -> most_likely enc (2 ^ N.of_nat K) soft2 (N.lxor m m0).
Proof.
  intros (Hm & H). split; [apply lxor_lt; assumption|]. intros m' Hm' Hne.
  rewrite dot_enc by exact Hm. rewrite <- (lxor_cancel m' m0), dot_enc by (apply lxor_lt; assumption). apply H; [apply lxor_lt; assumption|].
  intros E. apply Hne. rewrite <- E. symmetry. apply lxor_cancel.
Qed.
End ML.
Lemma turned_back cw soft soft2 : (forall i, (i < length soft)%nat -> nth i cw 0 * nth i cw 0 = 1) -> turned cw soft soft2 -> turned cw soft2 soft.
Proof.
  intros HC (L1 & L2 & T). split; [lia|]. split; [lia|]. intros i Hi. rewrite L2 in Hi. rewrite T, Z.mul_assoc, HC by exact Hi. lia.
Qed.
Lemma answer_turn enc K L m0 soft soft2 r : (forall m, length (enc m) = L) -> (forall m i, (i < L)%nat -> nth i (enc m) 0 * nth i (enc m) 0 = 1) ->
  (forall m m' i, (m < 2 ^ N.of_nat K)%N -> (m' < 2 ^ N.of_nat K)%N -> (i < L)%nat -> nth i (enc (N.lxor m m')) 0 = nth i (enc m) 0 * nth i (enc m') 0) ->
  (m0 < 2 ^ N.of_nat K)%N -> length soft = L -> turned (enc m0) soft soft2 ->
  ml_answer enc (2 ^ N.of_nat K) soft r -> ml_answer enc (2 ^ N.of_nat K) soft2 (if r =? -1 then -1 else Z.lxor r (Z.of_N m0)).
Proof.
  intros LE SG MU H0 LS T [(m & -> & H)|(-> & H)].
  - destruct (Z.eqb_spec (Z.of_N m) (-1)); [lia|]. left. exists (N.lxor m m0). split; [apply Z_lxor_N|]. apply (most_turn enc K L m0 LE SG MU H0 soft soft2 LS T m H).
  - cbn. right. split; [reflexivity|]. intros m Hm. apply (H (N.lxor m m0)). apply (most_turn enc K L m0 LE SG MU H0 soft2 soft); try assumption.
    + destruct T as (_ & T & _). congruence.
    + apply turned_back; [|exact T]. intros i Hi. apply SG. lia.
Qed.

(** ** the search of the soft short decoder, K > 4 *)
From Verif Require Import Lib_sim Proof_osd_sym.
Section Soft.
Variables n k t : nat.
Variable g : N.
Hypothesis Hk : (1 <= k < n)%nat.
Hypothesis Hn : (n <= 31)%nat.
Hypothesis Hp : (n - k <= 15)%nat.
Hypothesis HG : has_degree g (N.of_nat (n - k)).
Hypothesis Ht : (1 <= t <= 3)%nat.
Variable par : list (option Z).
Variable err : list Z.
Hypothesis HPar : parOK n k g par.
Hypothesis HErr : einv n k g t (fun e => (e <> 0)%N /\ (e < 2 ^ N.of_nat n)%N /\ (ones e <= t)%nat) err.
Variables soft soft2 : list Z.
Hypothesis HL : length soft = n.
Hypothesis HL2 : length soft2 = n.
Hypothesis HB : Forall int8 soft.
Hypothesis HB2 : Forall int8 soft2.
Variable c : N.
Hypothesis HC : codeword n g c.
Hypothesis HS : forall i, (i < n)%nat -> nth i soft2 0 = (if N.testbit c (N.of_nat i) then - nth i soft 0 else nth i soft 0).
Hypothesis HZ : forall i, (i < n)%nat -> N.testbit c (N.of_nat i) = true -> nth i soft 0 <> 0.
Notation cwd := (codeword n g).
Notation mt := (met n soft).
Notation mt2 := (met n soft2).
Notation D := (met n soft2 c).

Lemma met_turn a : mt2 (N.lxor a c) = mt a + D.
Proof.
  assert (forall m, zsum m (fun i => - Z.b2z (N.testbit (N.lxor a c) (N.of_nat i)) * nth i soft2 0) =
    zsum m (fun i => - Z.b2z (N.testbit a (N.of_nat i)) * nth i soft 0) + zsum m (fun i => - Z.b2z (N.testbit c (N.of_nat i)) * nth i soft2 0)
    \/ (n < m)%nat) as H.
  { induction m as [|m IH]; [left; reflexivity|]. destruct (Nat.lt_ge_cases n (S m)) as [|L]; [right; assumption|left].
    destruct IH as [IH|IH]; [|lia]. cbn [zsum]. rewrite IH, N.lxor_spec, (HS m) by lia. destruct (N.testbit a _), (N.testbit c _); cbn [xorb Z.b2z]; lia. }
  unfold met. destruct (H n) as [E|E]; [exact E|lia].
Qed.
Lemma signs_turn : signs soft2 n = N.lxor (signs soft n) c.
Proof.
  apply N.bits_inj. intros i. rewrite N.lxor_spec. destruct (N.lt_ge_cases i (N.of_nat n)) as [L|L].
  - replace i with (N.of_nat (N.to_nat i)) by lia. set (j := N.to_nat i). assert (Hj : (j < n)%nat) by lia. clearbody j. rewrite !signs_bit. replace (j <? n)%nat with true by lia. cbn [andb].
    rewrite (HS j Hj). specialize (HZ j Hj). destruct (N.testbit c (N.of_nat j)); [specialize (HZ eq_refl)|rewrite xorb_false_r; reflexivity].
    destruct (Z.ltb_spec (nth j soft 0) 0), (Z.ltb_spec (- nth j soft 0) 0); try reflexivity; lia.
  - rewrite !(tb_ge _ (N.of_nat n)) by (exact L || apply signs_lt || apply HC). reflexivity.
Qed.
Lemma abs_rd i : rel (fun a b => Z.abs a = Z.abs b) (rd soft i) (rd soft2 i).
Proof.
  destruct (Nat.lt_ge_cases i n) as [Hi|Hi].
  - rewrite (rd_nth soft i 0), (rd_nth soft2 i 0) by lia. cbn [rel]. rewrite (HS i Hi). destruct (N.testbit c _); lia.
  - unfold rd. rewrite (proj2 (nth_error_None soft i)), (proj2 (nth_error_None soft2 i)) by lia. exact I.
Qed.
Lemma worst_turn : sb_worst n t soft2 = sb_worst n t soft.
Proof.
  assert (rel eq (sb_worst n t soft) (sb_worst n t soft2)) as R.
  { unfold sb_worst. apply rel_for_up; [reflexivity|]. intros i w ? _ <-. eapply rel_bind; [apply abs_rd|]. intros a b Hab.
    apply (rel_bind eq).
    - apply rel_while; [|intros x ? <-; apply rel_eq|reflexivity]. intros x ? <-. destruct (x <? t)%nat; [|reflexivity].
      destruct (rd w x) as [y| | |]; cbn [bind]; try reflexivity.
      assert (RZ : rel (fun a b => Z.abs a = Z.abs b) (rdZ soft y) (rdZ soft2 y)) by (unfold rdZ; destruct (y <? 0); [exact I|apply abs_rd]).
      destruct (rdZ soft y), (rdZ soft2 y); cbn in RZ; try contradiction; cbn [bind]; try reflexivity. rewrite RZ, Hab. reflexivity.
    - intros j ? <-. apply rel_eq. }
  destruct (sb_worst n t soft), (sb_worst n t soft2); cbn in R; congruence || contradiction.
Qed.

(** the states of the two searches *)
Definition turned_state (s s2 : Z * Z * Z) : Prop :=
  let '(w, b, nx) := s in let '(w2, b2, nx2) := s2 in
  (exists a, w = Z.of_N a /\ w2 = Z.of_N (N.lxor a c)) /\ 0 <= b /\ b2 = b + D /\ 0 <= b2 /\
  exists R l l2, nx = Z.max l R /\ nx2 = Z.max l2 (R + D) /\ -2 <= l <= -1 /\ -2 <= l2 <= -1.
Lemma update_turn r s s2 : (r = -1 \/ exists a, r = Z.of_N a) -> turned_state s s2 ->
  rel turned_state (sb_update n soft r s) (sb_update n soft2 (if r =? -1 then -1 else Z.lxor r (Z.of_N c)) s2).
Proof.
  destruct s as ((w & b) & nx), s2 as ((w2 & b2) & nx2). intros Hr ((a & Hw & Hw2) & Hb & Hb2 & Hp2 & R & l & l2 & Hnx & Hnx2 & Hl & Hl2). unfold sb_update.
  destruct Hr as [->|(d & ->)].
  - change (-1 =? -1) with true. cbv iota. replace (-1 =? w) with false by lia. replace (-1 =? w2) with false by lia. cbn [sb_metric Z.ltb Z.compare bind].
    change (sb_metric n soft (-1)) with (Ok (-1)). change (sb_metric n soft2 (-1)) with (Ok (-1)). cbn [bind]. replace (b <? -1) with false by lia. replace (b2 <? -1) with false by lia.
    cbn [rel]. unfold turned_state.
    assert (X : exists m, (if nx <? -1 then (w, b, -1) else (w, b, nx)) = (w, b, Z.max m R) /\ -2 <= m <= -1).
    { destruct (Z.ltb_spec nx (-1)); [exists (-1)|exists l]; (split; [f_equal; lia|lia]). }
    assert (X2 : exists m, (if nx2 <? -1 then (w2, b2, -1) else (w2, b2, nx2)) = (w2, b2, Z.max m (R + D)) /\ -2 <= m <= -1).
    { destruct (Z.ltb_spec nx2 (-1)); [exists (-1)|exists l2]; (split; [f_equal; lia|lia]). }
    destruct X as (m & -> & Hm), X2 as (m2 & -> & Hm2). split; [exists a; auto|]. split; [exact Hb|]. split; [exact Hb2|]. split; [exact Hp2|]. exists R, m, m2. auto.
  - destruct (Z.eqb_spec (Z.of_N d) (-1)); [lia|]. rewrite Z_lxor_N, Hw, Hw2.
    assert (EQ : (Z.of_N (N.lxor d c) =? Z.of_N (N.lxor a c)) = (Z.of_N d =? Z.of_N a)).
    { destruct (Z.eqb_spec (Z.of_N d) (Z.of_N a)) as [E|E].
      - apply Z.eqb_eq. f_equal. f_equal. lia.
      - apply Z.eqb_neq. intros E'. apply E. f_equal. rewrite <- (lxor_cancel d c), <- (lxor_cancel a c). f_equal. lia. }
    rewrite EQ. destruct (Z.of_N d =? Z.of_N a).
    { cbn [rel]. split; [exists a; auto|]. split; [exact Hb|]. split; [exact Hb2|]. split; [exact Hp2|]. exists R, l, l2. auto. }
    rewrite (metric_ok n soft d), (metric_ok n soft2 (N.lxor d c)), met_turn by assumption. cbn [bind rel]. set (m := mt d).
    replace (b2 <? m + D) with (b <? m) by lia. destruct (Z.ltb_spec b m).
    + split; [exists d; auto|]. split; [lia|]. split; [lia|]. split; [lia|]. exists b, l, l2. lia.
    + assert (X : exists R', (if nx <? m then (Z.of_N a, b, m) else (Z.of_N a, b, nx)) = (Z.of_N a, b, Z.max l R') /\
                        (if nx2 <? m + D then (Z.of_N (N.lxor a c), b2, m + D) else (Z.of_N (N.lxor a c), b2, nx2)) = (Z.of_N (N.lxor a c), b2, Z.max l2 (R' + D))).
      { exists (Z.max R m). split; [destruct (Z.ltb_spec nx m); f_equal; lia|destruct (Z.ltb_spec nx2 (m + D)); f_equal; lia]. }
      destruct X as (R' & -> & ->). split; [exists a; auto|]. split; [lia|]. split; [lia|]. split; [lia|]. exists R', l, l2. auto.
Qed.
Lemma soft_turn c0 : (4 < k)%nat -> sb_hard n k par err (Z.of_N (signs soft n)) = Ok (Z.of_N c0) -> 0 <= mt c0 -> 0 <= mt2 (N.lxor c0 c) ->
  exists r, sb_soft n k t par err soft = Ok r /\ sb_soft n k t par err soft2 = Ok (if r =? -1 then -1 else Z.lxor r (Z.of_N c)).
Proof.
  intros H4 E0 P1 P2.
  assert (HT : forall x, (x < 2 ^ N.of_nat n)%N -> exists r, sb_hard n k par err (Z.of_N x) = Ok r /\ -1 <= r /\ sb_hard n k par err (Z.of_N (N.lxor x c)) = Ok (if r =? -1 then -1 else Z.lxor r (Z.of_N c))).
  { intros x Hx. eapply (hard_turn n k g Hk Hn Hp HG t); eassumption. }
  unfold sb_soft. rewrite (hard_decisions n k t Hk Hn Hp Ht soft HL), (hard_decisions n k t Hk Hn Hp Ht soft2 HL2). cbn [bind]. rewrite signs_turn.
  destruct (HT (signs soft n) (signs_lt soft n)) as (r0 & F0 & _ & F0'). rewrite F0 in E0. injection E0 as ->. rewrite F0, F0'. cbn [bind].
  destruct (Z.eqb_spec (Z.of_N c0) (-1)); [lia|]. rewrite Z_lxor_N, (metric_ok n soft c0), (metric_ok n soft2 (N.lxor c0 c)), met_turn by assumption. cbn [bind].
  rewrite met_turn in P2.
  replace (4 <? k)%nat with true by lia. replace (k <=? 4)%nat with false by lia. rewrite worst_turn.
  destruct (worst_ok n k t g Hk Hn Hp HG Ht par err HPar HErr soft HL) as (w & Ew & Lw & Fw). rewrite Ew. cbn [bind].
  match goal with |- exists r, bind (for_up 1 _ ?f ?a) _ = _ /\ bind (for_up 1 _ ?f2 ?a2) _ = _ => assert (RR : rel turned_state (for_up 1 (2 ^ t) f a) (for_up 1 (2 ^ t) f2 a2)) end.
  { apply rel_for_up.
    - split; [exists c0; auto|]. split; [exact P1|]. split; [reflexivity|]. split; [exact P2|]. exists (Z.min (-2) (-2 - D)), (-2), (-2). lia.
    - intros j s s2 Hj Hs. cbv beta. destruct (flips_ok n k t Hk Hn Hp Ht soft HL w j Lw Fw) as (y & Ey & By). rewrite Ey. cbn [bind]. rewrite !Z_lxor_N.
      replace (N.lxor (N.lxor (signs soft n) c) y) with (N.lxor (N.lxor (signs soft n) y) c) by (rewrite !N.lxor_assoc; f_equal; apply N.lxor_comm).
      destruct (HT (N.lxor (signs soft n) y)) as (r & F & Hr & F'); [apply lxor_lt; [apply signs_lt|exact By]|]. rewrite F, F'. cbn [bind]. apply update_turn; [|exact Hs].
      destruct (Z.eq_dec r (-1)); [left; assumption|right; exists (Z.to_N r); lia]. }
  match type of RR with rel _ ?x ?y => remember x as X eqn:EX; remember y as Y eqn:EY end.
  assert (exists s, X = Ok s) as (s & Es).
  { destruct (soft_ok n k t g Hk Hn Hp HG Ht par err HPar HErr soft HL HB) as (r & Er & _). unfold sb_soft in Er. rewrite (hard_decisions n k t Hk Hn Hp Ht soft HL) in Er. cbn [bind] in Er.
    rewrite F0 in Er. cbn [bind] in Er. rewrite (metric_ok n soft c0) in Er by assumption. cbn [bind] in Er. replace (4 <? k)%nat with true in Er by lia. rewrite Ew in Er. cbn [bind] in Er.
    rewrite <- EX in Er. destruct X as [s| | |]; [eexists; reflexivity|discriminate..]. }
  rewrite Es in RR |- *. destruct Y as [s2| | |]; cbn [rel] in RR; try contradiction. cbn [bind]. destruct s as ((wd & b) & nx), s2 as ((wd2 & b2) & nx2).
  destruct RR as ((a & -> & ->) & Hb & Hb2 & Hp2 & R & l & l2 & Hnx & Hnx2 & Hl & Hl2). eexists. split; [reflexivity|]. f_equal.
  replace (b2 =? nx2) with (b =? nx) by lia. destruct (b =? nx); [reflexivity|]. destruct (Z.eqb_spec (Z.of_N a) (-1)); [lia|]. rewrite Z_lxor_N. reflexivity.
Qed.
End Soft.
