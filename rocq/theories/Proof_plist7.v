(** Polar list decoders: roles, the parity encoder, exhaustive lists and costs without saturation. *)
From Coq Require Import ZifyBool ZifyNat ZifyN Permutation.
From Verif Require Import Cpp Model_simd Model_sort Model_polar Model_polar_list Spec_polar Spec_polar_list Lib_list Lib_wht
  Proof_bits Proof_simd Proof_polar1 Proof_polar2 Proof_polar3 Proof_polar4 Proof_polar5 Proof_polar6 Proof_polar7 Proof_plist1 Proof_plist2 Proof_plist3 Proof_plist4 Proof_plist5 Proof_plist6.
Local Open Scope nat_scope.
Ltac Zify.zify_post_hook ::= idtac.

(** ** Roles *)
Lemma groles_plain fl : forall c, groles plain_next fl c = plain_roles fl.
Proof. induction fl as [|[|] fl IH]; intros c; cbn; [reflexivity|f_equal; apply IH..]. Qed.
Lemma groles_parity stride fl : forall c, groles (parity_next stride) fl c = parity_roles stride fl c.
Proof. induction fl as [|[|] fl IH]; intros c; cbn; [reflexivity|f_equal; apply IH|]. destruct c; cbn; f_equal; apply IH. Qed.
Lemma payload_plain fl : payload (plain_roles fl) = unfrozen fl.
Proof. unfold payload, plain_roles, unfrozen. induction fl as [|[|] fl IH]; cbn; [reflexivity|exact IH|f_equal; exact IH]. Qed.
Lemma symbols_plain fl : forall par m, symbols (plain_roles fl) par m = expand fl m.
Proof. induction fl as [|[|] fl IH]; intros par m; cbn; [reflexivity|f_equal; apply IH..]. Qed.
Lemma plain_no_parity fl : ~ In Parity (plain_roles fl).
Proof. induction fl as [|[|] fl IH]; cbn; [tauto|intros [C|C]; [discriminate|tauto]..]. Qed.

(** ** The parity encoder *)
Lemma skipn_tl {X} (l : list X) n : skipn n (tl l) = skipn (S n) l.
Proof. destruct l; [destruct n; reflexivity|reflexivity]. Qed.
Lemma symbols_app' a : forall b par M, symbols (a ++ b) par M = symbols a par M ++ symbols b (pafter a par M) (skipn (payload a) M) /\
  pafter (a ++ b) par M = pafter b (pafter a par M) (skipn (payload a) M).
Proof.
  induction a as [|r a IH]; intros b par M; [auto|]. rewrite payload_cons. destruct r; cbn [Datatypes.app symbols pafter Nat.add].
  - destruct (IH b par M) as (-> & ->). auto.
  - destruct (IH b (par * hd 1%Z M)%Z (tl M)) as (-> & ->). rewrite skipn_tl. auto.
  - destruct (IH b 1%Z M) as (-> & ->). auto.
Qed.
Section Encoder.
Variables (message : list Z) (frozen : list N) (n stride first : nat).
Hypothesis Hn : 1 <= n.
Hypothesis Hf : 2 ^ n <= 32 * length frozen.
Notation fl := (flags frozen (2 ^ n)).
Notation rs := (groles (parity_next stride) fl first).
Hypothesis Hm : payload rs <= length message.
Hypothesis Fm : Forall pm1 message.
Definition pst (i : nat) : nat * Z * nat :=
  (payload (groles (parity_next stride) (firstn i fl) first), pafter (groles (parity_next stride) (firstn i fl) first) 1 message, gafter (parity_next stride) (firstn i fl) first).
Lemma nth_skipn_hd {X} (l : list X) i d : hd d (skipn i l) = nth i l d.
Proof. rewrite nth_hd, nth_skipn', Nat.add_0_r. reflexivity. Qed.
Lemma pst_step i : i < 2 ^ n -> parity_symbol ops8 message (is_frozen frozen i) stride (pst i) = Ok (nth i (symbols rs 1 message) 1%Z, pst (S i)).
Proof.
  intros Hi. unfold pst. assert (length fl = 2 ^ n) as Lf by apply length_flags.
  assert (firstn (S i) fl = firstn i fl ++ [is_frozen frozen i]) as E1 by (rewrite <- (nth_flags frozen (2 ^ n) i true Hi); apply firstn_snoc; lia).
  rewrite E1, groles_app, gafter_app. set (r1 := groles (parity_next stride) (firstn i fl) first). set (c := gafter (parity_next stride) (firstn i fl) first).
  assert (length r1 = i) as L1 by (unfold r1; rewrite length_groles, firstn_length; lia).
  assert (exists rest, rs = (r1 ++ groles (parity_next stride) [is_frozen frozen i] c) ++ rest) as (rest & Er).
  { exists (groles (parity_next stride) (skipn (S i) fl) (gafter (parity_next stride) (firstn (S i) fl) first)).
    transitivity (groles (parity_next stride) (firstn (S i) fl ++ skipn (S i) fl) first); [rewrite firstn_skipn; reflexivity|]. rewrite groles_app, E1, (groles_app _ (firstn i fl)). reflexivity. }
  rewrite Er. rewrite Er in Hm. rewrite !payload_app in *. rewrite <- app_assoc. destruct (symbols_app' r1 (groles (parity_next stride) [is_frozen frozen i] c ++ rest) 1 message) as (-> & _).
  rewrite app_nth2 by (rewrite length_symbols; lia). rewrite length_symbols, L1, Nat.sub_diag.
  destruct (symbols_app' r1 (groles (parity_next stride) [is_frozen frozen i] c) 1 message) as (_ & ->).
  assert (pm1 (pafter r1 1 message)) as Hp by (apply pm1_symbols; [left; reflexivity|exact Fm]).
  unfold parity_symbol. destruct (is_frozen frozen i).
  - cbn [groles gafter payload filter length Datatypes.app symbols pafter nth]. rewrite Nat.add_0_r. reflexivity.
  - clearbody c. destruct c as [|c]; cbn [groles gafter parity_next fst snd Datatypes.app symbols pafter nth Nat.eqb negb].
    + change (payload [Parity]) with 0. rewrite Nat.add_0_r. reflexivity.
    + cbn [groles parity_next fst] in Hm. change (payload [Data]) with 1 in *. rewrite (rd_nth _ _ 1%Z) by lia. cbn [bind]. rewrite nth_skipn_hd. cbn [p_mul ops8].
      rewrite qmul8_tern by (apply pm1_tern; (exact Hp || (apply pm1_nth; [exact Fm|left; reflexivity]))). replace (S c - 1) with c by lia. reflexivity.
Qed.
Lemma parity_expand_ok codeword : 2 ^ n <= length codeword ->
  exists cw, parity_expand ops8 message frozen (2 ^ n) stride first codeword = Ok cw /\
    shows 0%Z 0 (2 ^ n) (blk ops8 1 (fun i => nth i (symbols rs 1 message) 1%Z)) codeword cw.
Proof.
  intros Hc. set (u := fun i => nth i (symbols rs 1 message) 1%Z). unfold parity_expand.
  assert (2 ^ n = 2 ^ (n - 1) * 2) as EN by (replace n with (S (n - 1)) at 1 by lia; cbn [Nat.pow]; lia).
  set (body := fun (i : nat) (s : nat * Z * nat * list Z) => _).
  cut (exists cw, for_step 0 (2 ^ (n - 1) * 2) 2 body (0, p_one ops8, first, codeword) = Ok (pst (2 ^ n), cw) /\
    shows 0%Z 0 (2 ^ n) (blk ops8 1 u) codeword cw).
  { intros (cw & E & I). rewrite <- EN in E. rewrite E. destruct (pst (2 ^ n)) as [[? ?] ?]. cbn [bind]. exists cw. auto. }
  edestruct (for_step_inv (fun k (s : nat * Z * nat * list Z) => fst s = pst (k * 2) /\
      shows 0%Z 0 (2 ^ n) (fun j => if j <? k * 2 then blk ops8 1 u j else nth j codeword 0%Z) codeword (snd s))) as ((st & cw) & E & Hp & I).
  4: { cbn [fst snd] in *. exists cw. split; [rewrite E, Hp; do 3 f_equal; lia|]. eapply shows_ext; [exact I|]. intros j Hj. cbv beta.
       replace (j <? 2 ^ (n - 1) * 2) with true by lia. reflexivity. }
  - lia.
  - intros k (st & cw) Hk (Hp & I). cbn [fst snd] in *. unfold body. rewrite Hp. cbv beta iota.
    rewrite get_ok by lia. cbn [bind]. rewrite (pst_step (k * 2)) by lia. cbn [bind].
    rewrite get_ok by lia. cbn [bind]. replace (S (k * 2)) with (k * 2 + 1) by lia. rewrite (pst_step (k * 2 + 1)) by lia. cbn [bind]. fold (u (k * 2)) (u (k * 2 + 1)).
    destruct (shows_wr 0%Z 0 _ _ _ _ (k * 2) (p_mul ops8 (u (k * 2)) (u (k * 2 + 1))) I ltac:(lia) ltac:(lia)) as (cw1 & E1 & I1).
    rewrite Nat.add_0_l in E1. rewrite E1. cbn [bind].
    destruct (shows_wr 0%Z 0 _ _ _ _ (k * 2 + 1) (u (k * 2 + 1)) I1 ltac:(lia) ltac:(lia)) as (cw2 & E2 & I2).
    rewrite Nat.add_0_l in E2. rewrite E2. cbn [bind]. eexists. split; [reflexivity|]. cbn [fst snd]. split; [f_equal; lia|].
    eapply shows_ext; [exact I2|]. intros j Hj. cbv beta. cbn [blk Nat.pow]. rewrite Nat.div_1_r.
    destruct (Nat.eqb_spec j (k * 2 + 1)) as [->|N1].
    + replace (k * 2 + 1 <? S k * 2) with true by lia. replace (Nat.even (k * 2 + 1)) with false; [reflexivity|].
      replace (k * 2 + 1) with (S (2 * k)) by lia. rewrite Nat.even_succ, <- Nat.negb_even, Nat.even_mul. reflexivity.
    + destruct (Nat.eqb_spec j (k * 2)) as [->|N2].
      * replace (k * 2 <? S k * 2) with true by lia. rewrite Nat.even_mul. rewrite orb_true_r. reflexivity.
      * replace (j <? S k * 2) with (j <? k * 2) by lia. reflexivity.
  - cbn [fst snd]. split; [reflexivity|]. split; [reflexivity|]. intros x. cbn [Nat.mul Nat.ltb Nat.leb]. rewrite Nat.sub_0_r. destruct (_ && _); reflexivity.
Qed.
End Encoder.
Lemma parity_encode_ok codeword message frozen level stride first : 1 <= level <= 30 -> 2 ^ level <= 32 * length frozen -> 2 ^ level <= length codeword ->
  payload (parity_roles stride (flags frozen (2 ^ level)) first) <= length message -> Forall pm1 message ->
  parity_encode ops8 codeword message frozen level stride first =
    Ok (transform level (symbols (parity_roles stride (flags frozen (2 ^ level)) first) 1 message) ++ skipn (2 ^ level) codeword).
Proof.
  intros Hn Hf Hc Hm Fm. unfold parity_encode. replace (level <=? 30) with true by lia. cbn [require bind]. rewrite <- groles_parity in *.
  destruct (parity_expand_ok message frozen level stride first ltac:(lia) Hf Hm Fm codeword Hc) as (cw & E & I). rewrite E. cbn [bind].
  apply stages_pm1; try lia; [rewrite length_symbols, length_groles, length_flags; reflexivity|apply pm1_symbols; [left; reflexivity|exact Fm]|exact I].
Qed.

(** ** All messages *)
Fixpoint all_words (K : nat) : list (list Z) :=
  match K with O => [[]] | S K => map (cons 1%Z) (all_words K) ++ map (cons (-1)%Z) (all_words K) end.
Lemma length_all_words K : length (all_words K) = 2 ^ K.
Proof. induction K as [|K IH]; [reflexivity|]. cbn [all_words Nat.pow]. rewrite app_length, !map_length, IH. lia. Qed.
Lemma in_all_words K : forall m, In m (all_words K) <-> length m = K /\ Forall pm1 m.
Proof.
  induction K as [|K IH]; intros m; cbn [all_words].
  - split; [intros [<- | []]; auto|]. intros (L & _). destruct m; [left; reflexivity|discriminate].
  - rewrite in_app_iff, !in_map_iff. split.
    + intros [(x & <- & H)|(x & <- & H)]; apply IH in H; destruct H as (L & F); (split; [cbn [length]; lia|constructor; [unfold pm1; auto|exact F]]).
    + intros (L & F). destruct F as [|x m Hx F]; [discriminate|]. cbn [length] in L. assert (In m (all_words K)) as I by (apply IH; split; [lia|exact F]).
      destruct Hx as [-> | ->]; [left|right]; exists m; auto.
Qed.
Lemma all_found K (f : nat -> list Z) : (forall k, k < 2 ^ K -> length (f k) = K /\ Forall pm1 (f k)) -> (forall k l, k < 2 ^ K -> l < 2 ^ K -> k <> l -> f k <> f l) ->
  forall m, length m = K -> Forall pm1 m -> exists k, k < 2 ^ K /\ f k = m.
Proof.
  intros H D m L F. assert (incl (all_words K) (map f (seq 0 (2 ^ K)))) as I.
  { apply NoDup_length_incl.
    - assert (forall n, n <= 2 ^ K -> NoDup (map f (seq 0 n))) as G; [|apply G; lia]. induction n as [|n IH]; intros Hn; [constructor|]. rewrite seq_S, map_app. cbn [map Nat.add].
      apply (Permutation_NoDup (l := f n :: map f (seq 0 n))); [apply Permutation_cons_append|]. constructor; [|apply IH; lia].
      intros C. apply in_map_iff in C. destruct C as (k & E & Hk). apply in_seq in Hk. apply (D k n); (lia || exact E).
    - rewrite map_length, seq_length, length_all_words. lia.
    - intros w Hw. apply in_map_iff in Hw. destruct Hw as (k & <- & Hk). apply in_seq in Hk. apply in_all_words. apply H. lia. }
  specialize (I m (proj2 (in_all_words K m) (conj L F))). apply in_map_iff in I. destruct I as (k & E & Hk). apply in_seq in Hk. exists k. split; [lia|exact E].
Qed.

(** ** Costs without saturation *)
Definition sumabs (l : list Z) : Z := sum (map Z.abs l).
Lemma sumabs_cons x l : sumabs (x :: l) = (Z.abs x + sumabs l)%Z.
Proof. reflexivity. Qed.
Lemma sumabs_nonneg l : (0 <= sumabs l)%Z.
Proof. induction l as [|x l IH]; [unfold sumabs; cbn; lia|]. rewrite sumabs_cons. lia. Qed.
Lemma sumabs_app a b : sumabs (a ++ b) = (sumabs a + sumabs b)%Z.
Proof. induction a as [|x a IH]; [reflexivity|]. cbn [Datatypes.app]. rewrite !sumabs_cons, IH. lia. Qed.
Lemma charge_cons x l : charge (x :: l) = (Z.max 0 (- x) + charge l)%Z.
Proof. reflexivity. Qed.
Lemma charge_app a b : charge (a ++ b) = (charge a + charge b)%Z.
Proof. induction a as [|x a IH]; [reflexivity|]. cbn [Datatypes.app]. rewrite !charge_cons, IH. lia. Qed.
Lemma cost_step p q a b : pm1 p -> pm1 q -> (Z.abs a + Z.abs b <= 127)%Z ->
  (Z.max 0 (- (p * q * a)) + Z.max 0 (- (q * b)) = Z.max 0 (- (p * combine_left a b)) + Z.max 0 (- (q * combine_right p (Z.max (-127) a) b)))%Z.
Proof.
  intros Hp Hq H. unfold combine_left, combine_right, clamp. rewrite (Z.max_r (-127) a) by lia.
  destruct Hp as [-> | ->], Hq as [-> | ->], (Z.lt_total a 0) as [Ha|[->|Ha]], (Z.lt_total b 0) as [Hb|[->|Hb]];
    rewrite ?(Z.sgn_neg a), ?(Z.sgn_pos a), ?(Z.sgn_neg b), ?(Z.sgn_pos b) by assumption; cbn [Z.sgn]; lia.
Qed.
Lemma cost_lists x : forall y a b, length y = length x -> length a = length x -> length b = length x -> Forall pm1 x -> Forall pm1 y -> (sumabs a + sumabs b <= 127)%Z ->
  (charge (zip2 Z.mul (zip2 Z.mul x y) a) + charge (zip2 Z.mul y b) =
   charge (zip2 Z.mul x (zip2 combine_left a b)) + charge (zip2 Z.mul y (zip3 (fun x a b => combine_right x (Z.max (-127) a) b) x a b)))%Z /\
  (sumabs (zip2 combine_left a b) <= sumabs a + sumabs b)%Z /\ (sumabs (zip3 (fun x a b => combine_right x (Z.max (-127) a) b) x a b) <= sumabs a + sumabs b)%Z.
Proof.
  induction x as [|p x IH]; intros [|q y] [|a la] [|b lb] L1 L2 L3 Fx Fy HS; cbn [length] in *; try discriminate; [cbn; lia|].
  inversion Fx; inversion Fy; subst. cbn [zip2 zip3]. rewrite !charge_cons, !sumabs_cons in *. pose proof (sumabs_nonneg la). pose proof (sumabs_nonneg lb).
  destruct (IH y la lb) as (E1 & E2 & E3); try assumption; try lia. pose proof (cost_step p q a b ltac:(assumption) ltac:(assumption) ltac:(lia)) as C.
  split; [lia|]. split.
  - assert (Z.abs (combine_left a b) <= Z.abs a + Z.abs b)%Z; [|lia]. unfold combine_left. clear - a b.
    destruct (Z.lt_total a 0) as [Ha|[->|Ha]], (Z.lt_total b 0) as [Hb|[->|Hb]]; rewrite ?(Z.sgn_neg a), ?(Z.sgn_pos a), ?(Z.sgn_neg b), ?(Z.sgn_pos b) by assumption; cbn [Z.sgn]; lia.
  - assert (Z.abs (combine_right p (Z.max (-127) a) b) <= Z.abs a + Z.abs b)%Z; [|lia]. unfold combine_right, clamp. clear - H1. destruct H1 as [-> | ->]; lia.
Qed.
Lemma zip2_ones l : forall n, length l = n -> zip2 Z.mul (repeat 1%Z n) l = l.
Proof. induction l as [|x l IH]; intros [|n] L; try discriminate; [reflexivity|]. cbn [repeat zip2]. rewrite IH by (cbn [length] in L; lia). f_equal. lia. Qed.
Lemma path_cost_exact n : forall fl u soft, length fl = 2 ^ n -> length u = 2 ^ n -> length soft = 2 ^ n -> Forall pm1 u ->
  (forall i, i < 2 ^ n -> nth i fl true = true -> nth i u 1%Z = 1%Z) -> (sumabs soft <= 127)%Z -> path_cost n fl u soft = discrepancy (ptr n u) soft.
Proof.
  induction n as [|m IH]; intros fl u soft Lf Lu Ls Fu Hz HS.
  - cbn [Nat.pow] in *. destruct u as [|x [|? ?]], soft as [|y [|? ?]]; cbn [length] in *; try lia. cbn [path_cost hd ptr]. unfold discrepancy. cbn [zip2]. rewrite charge_cons. cbn. lia.
  - rewrite path_cost_S. cbn [Nat.pow] in *. pose proof (pow2_pos m) as Hp.
    assert (length (firstn (2 ^ m) u) = 2 ^ m) as Lu1 by (rewrite firstn_length; lia). assert (length (skipn (2 ^ m) u) = 2 ^ m) as Lu2 by (rewrite skipn_length; lia).
    assert (length (firstn (2 ^ m) fl) = 2 ^ m) as Lf1 by (rewrite firstn_length; lia). assert (length (skipn (2 ^ m) fl) = 2 ^ m) as Lf2 by (rewrite skipn_length; lia).
    assert (length (firstn (2 ^ m) soft) = 2 ^ m) as Ls1 by (rewrite firstn_length; lia). assert (length (skipn (2 ^ m) soft) = 2 ^ m) as Ls2 by (rewrite skipn_length; lia).
    assert (Forall pm1 (firstn (2 ^ m) u)) as Fu1 by (apply Forall_firstn_; exact Fu). assert (Forall pm1 (skipn (2 ^ m) u)) as Fu2 by (apply Forall_skipn_; exact Fu).
    assert (forall f v s, length f = 2 ^ m -> length v = 2 ^ m -> length s = 2 ^ m -> Forall pm1 v -> (forall i, i < 2 ^ m -> nth i f true = true -> nth i v 1%Z = 1%Z) -> (sumabs s <= 127)%Z -> ccost m f v s = discrepancy (ptr m v) s) as Hc.
    { intros f v s L1 L2 L3 Fv Hv Hs. unfold ccost. destruct ((m <=? 5) && forallb (fun b => b) f) eqn:C; [|apply IH; assumption]. apply andb_true_iff in C. destruct C as [_ C].
      assert (v = repeat 1%Z (2 ^ m)) as ->.
      { apply (list_ext _ _ 1%Z); [rewrite repeat_length; exact L2|]. intros i Hi. rewrite nth_repeat. apply Hv; [lia|]. rewrite forallb_forall in C. apply C. apply nth_In. lia. }
      rewrite ptr_ones. unfold discrepancy. rewrite zip2_ones by exact L3. reflexivity. }
    rewrite <- (firstn_skipn (2 ^ m) soft), sumabs_app in HS.
    destruct (cost_lists (ptr m (firstn (2 ^ m) u)) (ptr m (skipn (2 ^ m) u)) (firstn (2 ^ m) soft) (skipn (2 ^ m) soft)) as (E1 & E2 & E3).
    1-3: rewrite !length_ptr by assumption; (reflexivity || assumption).
    1-2: apply pm1_ptr; assumption.
    { exact HS. }
    rewrite <- ptr_transform by exact Lu1. rewrite (Hc (firstn (2 ^ m) fl)), (Hc (skipn (2 ^ m) fl)); try assumption.
    + unfold discrepancy in *. cbn [ptr]. rewrite <- (firstn_skipn (2 ^ m) soft) at 3. rewrite zip2_app by (rewrite length_zip2, !length_ptr by assumption; lia). rewrite charge_app. unfold sleft, sright. lia.
    + unfold sright. rewrite length_zip3, length_ptr by assumption. lia.
    + intros i Hi E. rewrite nth_skipn' in E. rewrite nth_skipn'. apply Hz; [lia|exact E].
    + unfold sright. lia.
    + unfold sleft. rewrite length_zip2. lia.
    + intros i Hi E. rewrite nth_firstn' in E. rewrite nth_firstn'. replace (i <? 2 ^ m) with true in * by lia. apply Hz; [lia|exact E].
    + unfold sleft. lia.
Qed.
