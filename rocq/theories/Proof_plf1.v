(** Polar list decoders with floating point lanes: what happens at one position. *)
From Coq Require Import ZifyBool ZifyNat Permutation Floats.SpecFloat.
From Verif Require Import Cpp Model_simd Model_sort Model_polar Model_polar_list Model_polar_float Model_fsimd Model_polar_listf Spec_polar Spec_polar_float Spec_polar_list Spec_polar_listf
  Lib_list Lib_wht Lib_float Proof_bits Proof_simd Proof_polar1 Proof_polar2 Proof_polar3 Proof_polar4 Proof_polar7 Proof_polarf2 Proof_plist1 Proof_plist2 Proof_plf0.
Local Open Scope nat_scope.
Ltac Zify.zify_post_hook ::= idtac.
Notation z0 := (S754_zero false).
Definition flane (k : nat) (v : list spec_float) : spec_float := nth k v z0.

(** ** Lists made of pairs *)
Definition fpairs (f g : nat -> spec_float) (W : nat) : list spec_float := flat_map (fun k => [f k; g k]) (seq 0 W).
Lemma fpairs_S f g W : fpairs f g (S W) = fpairs f g W ++ [f W; g W].
Proof. unfold fpairs. rewrite seq_S, flat_map_app. reflexivity. Qed.
Lemma length_fpairs f g W : length (fpairs f g W) = 2 * W.
Proof. induction W as [|W IH]; [reflexivity|]. rewrite fpairs_S, app_length, IH. cbn [length]. lia. Qed.
Lemma nth_fpairs f g W k : k < W -> nth (2 * k) (fpairs f g W) z0 = f k /\ nth (2 * k + 1) (fpairs f g W) z0 = g k.
Proof.
  induction W as [|W IH]; intros H; [lia|]. rewrite fpairs_S. destruct (Nat.eq_dec k W) as [->|Hne].
  - rewrite !app_nth2 by (rewrite length_fpairs; lia). rewrite length_fpairs. replace (2 * W - 2 * W) with 0 by lia. replace (2 * W + 1 - 2 * W) with 1 by lia. auto.
  - rewrite !app_nth1 by (rewrite length_fpairs; lia). apply IH. lia.
Qed.
Lemma fpairs_ext (l : list spec_float) f g W : length l = 2 * W -> (forall k, k < W -> nth (2 * k) l z0 = f k /\ nth (2 * k + 1) l z0 = g k) -> l = fpairs f g W.
Proof.
  intros L H. apply (list_ext _ _ z0); [rewrite length_fpairs; exact L|]. intros i Hi. rewrite L in Hi.
  destruct (even_odd_case i) as (k & [-> | ->]).
  - destruct (H k ltac:(lia)) as (-> & _). symmetry. apply nth_fpairs. lia.
  - destruct (H k ltac:(lia)) as (_ & ->). symmetry. apply nth_fpairs. lia.
Qed.
(** ** Comparisons *)
Definition notnan (x : spec_float) : Prop := x <> S754_nan.
Definition key (x : spec_float) : Z * Z * Z :=
  match x with
  | S754_infinity true => (-2, 0, 0) | S754_finite true m e => (-1, - e, - Zpos m) | S754_zero _ | S754_nan => (0, 0, 0)
  | S754_finite false m e => (1, e, Zpos m) | S754_infinity false => (2, 0, 0)
  end%Z.
Definition klt (a b : Z * Z * Z) : bool :=
  let '(a1, a2, a3) := a in let '(b1, b2, b3) := b in ((a1 <? b1) || (a1 =? b1) && ((a2 <? b2) || (a2 =? b2) && (a3 <? b3)))%Z.
Lemma ltb_key x y : notnan x -> notnan y -> SFltb x y = klt (key x) (key y).
Proof.
  intros Hx Hy. unfold SFltb. destruct x as [[]|[]| |[] m e], y as [[]|[]| |[] m' e']; try (elim Hx; reflexivity); try (elim Hy; reflexivity); try reflexivity;
    cbn [SFcompare key klt Z.ltb Z.eqb Z.compare Pos.compare Pos.compare_cont orb andb Pos.eqb].
  - change (Pos.compare_cont Eq m m') with (Pos.compare m m'). destruct (Z.compare_spec e e') as [-> | H | H]; [destruct (Pos.compare_spec m m') as [-> | H | H]; cbn [CompOpp]; lia|lia|lia].
  - change (Pos.compare_cont Eq m m') with (Pos.compare m m'). destruct (Z.compare_spec e e') as [-> | H | H]; [destruct (Pos.compare_spec m m') as [-> | H | H]; cbn [CompOpp]; lia|lia|lia].
Qed.
Lemma ltb_asym x y : notnan x -> notnan y -> SFltb x y = true -> SFltb y x = false.
Proof. intros Hx Hy. rewrite !ltb_key by assumption. destruct (key x) as [[x1 x2] x3], (key y) as [[y1 y2] y3]. unfold klt. lia. Qed.
Lemma ltb_negtrans x y z : notnan x -> notnan y -> notnan z -> SFltb x y = false -> SFltb y z = false -> SFltb x z = false.
Proof. intros Hx Hy Hz. rewrite !ltb_key by assumption. destruct (key x) as [[x1 x2] x3], (key y) as [[y1 y2] y3], (key z) as [[w1 w2] w3]. unfold klt. lia. Qed.
Lemma ltb_irrefl x : SFltb x x = false.
Proof. destruct (SFltb x x) eqn:E; [|reflexivity]. assert (notnan x) as N by (intros ->; discriminate). rewrite (ltb_asym x x N N E) in E. discriminate. Qed.
Lemma map_repeat' {X Y} (f : X -> Y) x n : map f (repeat x n) = repeat (f x) n.
Proof. induction n; [reflexivity|]. cbn. rewrite IHn. reflexivity. Qed.

Section Width.
Variables (prec emax ub : Z) (W : nat).
Hypothesis Hp : (1 < prec)%Z.
Hypothesis He : (prec < emax)%Z.
Hypothesis HW : 1 <= W.
Hypothesis HU : (Z.of_nat W <= 2 ^ ub)%Z.
Notation P := (opsfv prec emax W).
Notation emb := (hard_value prec).
Notation million := (million prec emax).
Notation step := (step_metric prec emax).

(** ** Vectors *)
Lemma shuf_emb a mp : fv_shuf (map emb a) mp = map emb (vshuf a mp).
Proof.
  unfold fv_shuf, vshuf. rewrite map_map, map_length. apply map_ext. intros i. destruct (i <? _)%Z; [|reflexivity]. change z0 with (emb 0). apply map_nth.
Qed.
Lemma length_fvshuf a m : length (fv_shuf a m) = length m.
Proof. apply map_length. Qed.
Lemma flane_shuf a mp k : length a = W -> is_map W mp -> k < W -> flane k (fv_shuf a mp) = flane (at_ mp k) a.
Proof.
  intros La Hm H. pose proof (at_lt W mp k Hm H) as Hl. destruct Hm as (L & F). unfold fv_shuf, flane. rewrite (nth_map1 _ _ _ 0%Z) by lia.
  rewrite Forall_forall in F. assert (In (nth k mp 0%Z) mp) as I by (apply nth_In; lia). specialize (F _ I). cbv beta in F.
  rewrite La. replace (nth k mp 0 <? Z.of_nat W)%Z with true by lia. reflexivity.
Qed.
Lemma flane_emb k v : flane k (map emb v) = emb (lane k v).
Proof. unfold flane, lane. change z0 with (emb 0). apply map_nth. Qed.
Lemma one_is : p_one P = map emb (repeat 1%Z W).
Proof. cbn [p_one opsfv]. rewrite map_repeat'. f_equal. apply of_int_emb; [assumption..|unfold tern; lia]. Qed.
Definition zmulv (a b : list Z) : list Z := zip2 Z.mul a b.
Lemma lanes2_zip2 f a : forall b, lanes2 f a b = zip2 f a b.
Proof. induction a as [|x a IH]; intros [|y b]; [reflexivity..|]. unfold lanes2 in *. cbn. f_equal. apply IH. Qed.
Lemma emb_mul a b : pm1 a -> pm1 b -> SFmul prec emax (emb a) (emb b) = emb (a * b).
Proof.
  intros Ha Hb. assert (tern a /\ tern b) as (Ta & Tb) by (unfold tern, pm1 in *; lia).
  destruct (mulf_ok prec emax Hp He _ _ (hardf_emb prec Hp a Ta) (hardf_emb prec Hp b Tb)) as (H & E).
  rewrite !fsgn_emb in E by assumption. rewrite <- E. apply hardf_sgn; try assumption. rewrite E. unfold pm1 in *. lia.
Qed.
Lemma mul_emb_v a b : Forall pm1 a -> Forall pm1 b -> p_mul P (map emb a) (map emb b) = map emb (zmulv a b).
Proof.
  intros Fa. cbn [p_mul opsfv]. rewrite lanes2_zip2. unfold zmulv. revert b. induction Fa as [|x a Hx Fa IH]; intros [|y b] Fb; [reflexivity..|].
  inversion Fb; subst. cbn [map zip2]. rewrite emb_mul by assumption. f_equal. apply IH. assumption.
Qed.
Lemma flane_zip2 f a b k : length a = W -> length b = W -> k < W -> flane k (zip2 f a b) = f (flane k a) (flane k b).
Proof. intros La Lb Hk. unfold flane. rewrite (nth_zip2 _ _ _ _ z0 z0) by lia. reflexivity. Qed.
Lemma lane_zmulv a b k : length a = W -> length b = W -> k < W -> lane k (zmulv a b) = (lane k a * lane k b)%Z.
Proof. intros La Lb Hk. unfold lane, zmulv. rewrite (nth_zip2 _ _ _ _ 0%Z 0%Z) by lia. reflexivity. Qed.
Lemma prod_v a b : length a = W -> length b = W -> length (p_prod P a b) = W /\ forall k, k < W -> flane k (p_prod P a b) = combine_left_f prec emax (flane k a) (flane k b).
Proof.
  intros La Lb. cbn [p_prod opsfv]. rewrite !lanes2_zip2. split; [rewrite !length_zip2, !map_length; lia|]. intros k Hk.
  rewrite !flane_zip2 by (rewrite ?length_zip2, ?map_length; lia). unfold flane. rewrite !(nth_map1 _ a _ z0), !(nth_map1 _ b _ z0) by lia.
  rewrite !signumf_ok by assumption. reflexivity.
Qed.
Lemma madd_v h a b : length h = W -> length a = W -> length b = W -> length (p_madd P h a b) = W /\
  forall k, k < W -> flane k (p_madd P h a b) = combine_right_f prec emax (flane k h) (flane k a) (flane k b).
Proof.
  intros Lh La Lb. cbn [p_madd opsfv]. rewrite !lanes2_zip2. split; [rewrite !length_zip2; lia|]. intros k Hk. rewrite !flane_zip2 by (rewrite ?length_zip2; lia). reflexivity.
Qed.
Lemma emb_neg b : pm1 b -> SFltb (emb b) z0 = (b <? 0)%Z.
Proof. intros [-> | ->]; reflexivity. Qed.

(** ** fill_lanes *)
Lemma fill_lanesf_ok {A} f (g : nat -> A) : (forall k, k < W -> f k = Ok (g k)) -> fill_lanesf W f = Ok (map g (seq 0 W)).
Proof.
  intros H. unfold fill_lanesf.
  edestruct (for_up_inv (fun i (v : list A) => v = map g (seq 0 i)) (fun k v => x <- f k ;; Ok (v ++ [x])) 0 W []) as (v & E & I).
  4: { rewrite E, I. reflexivity. }
  - lia.
  - intros i v Hi ->. rewrite H by lia. cbn [bind]. eexists. split; [reflexivity|]. rewrite seq_S, map_app. reflexivity.
  - reflexivity.
Qed.
Notation iota := (iota W).
Lemma iotaf_ok : iota_mapf ub W = Ok iota.
Proof.
  unfold iota_mapf. rewrite (fill_lanesf_ok _ Z.of_nat); [reflexivity|]. intros k Hk. f_equal. unfold to_u. apply Z.mod_small. lia.
Qed.
Lemma flane_iota k : k < W -> lane k iota = Z.of_nat k.
Proof. intros H. unfold lane, Proof_plist1.iota. rewrite (nth_map1 _ _ _ 0) by (rewrite seq_length; lia). rewrite seq_nth by lia. reflexivity. Qed.
Lemma iotaf_is_map : is_map W iota.
Proof. apply lanes_intro; [unfold Proof_plist1.iota; rewrite map_length, seq_length; reflexivity|]. intros k Hk. rewrite flane_iota by exact Hk. lia. Qed.
Lemma atf_iota k : k < W -> at_ iota k = k.
Proof. intros H. unfold at_. rewrite flane_iota by exact H. lia. Qed.

(** ** Forking *)
Definition fforkf (metric sft : list spec_float) : list spec_float :=
  fpairs (fun k => step 1 (flane k metric) (flane k sft)) (fun k => step (-1) (flane k metric) (flane k sft)) W.
Lemma forkf_ok metric sft : length metric = W -> length sft = W -> list_forkf prec emax W metric sft = Ok (fforkf metric sft).
Proof.
  intros Hm Hs. unfold list_forkf. change (fzero prec emax) with z0.
  edestruct (for_up_inv (fun i (f : list spec_float) => length f = 2 * W /\ forall k, k < i -> nth (2 * k) f z0 = flane k metric /\ nth (2 * k + 1) f z0 = flane k metric)
    (fun k fork => m <- rd metric k ;; fork <- wr fork (2 * k + 1) m ;; wr fork (2 * k) m) 0 W (repeat z0 (2 * W))) as (f1 & E1 & L1 & I1).
  4: { rewrite E1. cbn [bind].
    edestruct (for_up_inv (fun i (f : list spec_float) => length f = 2 * W /\ (forall k, k < i -> nth (2 * k) f z0 = step 1 (flane k metric) (flane k sft) /\ nth (2 * k + 1) f z0 = step (-1) (flane k metric) (flane k sft))
        /\ (forall k, i <= k < W -> nth (2 * k) f z0 = flane k metric /\ nth (2 * k + 1) f z0 = flane k metric))
      (fun k fork => x <- rd sft k ;; if SFltb x z0 then (m <- rd fork (2 * k) ;; wr fork (2 * k) (SFsub prec emax m x))
        else (m <- rd fork (2 * k + 1) ;; wr fork (2 * k + 1) (SFadd prec emax m x))) 0 W f1) as (f2 & E2 & L2 & I2 & _).
    4: { rewrite E2. f_equal. apply fpairs_ext; [exact L2|]. exact I2. }
    - lia.
    - intros i f Hi (L & Ia & Ib). destruct (Ib i ltac:(lia)) as (B0 & B1).
      rewrite (rd_nth sft i z0) by lia. cbn [bind]. fold (flane i sft). destruct (SFltb (flane i sft) z0) eqn:C.
      + rewrite (rd_nth f _ z0) by lia. cbn [bind]. rewrite B0. rewrite wr_Ok by lia. eexists. split; [reflexivity|]. rewrite length_upd. split; [exact L|]. split.
        * intros k Hk. destruct (Nat.eq_dec k i) as [->|Hne].
          -- rewrite nth_upd_eq, nth_upd_neq by lia. rewrite B1. unfold step_metric. rewrite C. auto.
          -- rewrite !nth_upd_neq by lia. apply Ia. lia.
        * intros k Hk. rewrite !nth_upd_neq by lia. apply Ib. lia.
      + rewrite (rd_nth f _ z0) by lia. cbn [bind]. rewrite B1. rewrite wr_Ok by lia. eexists. split; [reflexivity|]. rewrite length_upd. split; [exact L|]. split.
        * intros k Hk. destruct (Nat.eq_dec k i) as [->|Hne].
          -- rewrite nth_upd_eq, nth_upd_neq by lia. rewrite B0. unfold step_metric. rewrite C. auto.
          -- rewrite !nth_upd_neq by lia. apply Ia. lia.
        * intros k Hk. rewrite !nth_upd_neq by lia. apply Ib. lia.
    - split; [exact L1|]. split; [intros; lia|]. intros k Hk. apply I1. lia. }
  - lia.
  - intros i f Hi (L & I). rewrite (rd_nth metric i z0) by lia. cbn [bind]. rewrite wr_Ok by lia. cbn [bind]. rewrite wr_Ok by (rewrite length_upd; lia).
    eexists. split; [reflexivity|]. rewrite !length_upd. split; [exact L|]. intros k Hk. destruct (Nat.eq_dec k i) as [->|Hne].
    + rewrite nth_upd_eq by (rewrite length_upd; lia). rewrite nth_upd_neq by lia. rewrite nth_upd_eq by lia. auto.
    + rewrite !nth_upd_neq by lia. apply I. lia.
  - split; [apply repeat_length|]. intros; lia.
Qed.
Definition fkillf (par : list Z) (fork : list spec_float) : list spec_float :=
  fpairs (fun k => if (lane k par <? 0)%Z then million else nth (2 * k) fork z0) (fun k => if (lane k par <? 0)%Z then nth (2 * k + 1) fork z0 else million) W.
Lemma killf_ok par fork : lanes_are W pm1 par -> length fork = 2 * W -> parity_killf prec emax W (map emb par) fork = Ok (fkillf par fork).
Proof.
  intros Lp Lf. unfold parity_killf. change (fzero prec emax) with z0.
  edestruct (for_up_inv (fun i (f : list spec_float) => length f = 2 * W /\ (forall k, k < i -> nth (2 * k) f z0 = (if (lane k par <? 0)%Z then million else nth (2 * k) fork z0) /\
        nth (2 * k + 1) f z0 = if (lane k par <? 0)%Z then nth (2 * k + 1) fork z0 else million)
        /\ (forall j, 2 * i <= j -> nth j f z0 = nth j fork z0))
      (fun k fork => c <- rd (map emb par) k ;; if SFltb c z0 then wr fork (2 * k) million else wr fork (2 * k + 1) million) 0 W fork) as (f2 & E2 & L2 & I2 & _).
  4: { rewrite E2. f_equal. apply fpairs_ext; [exact L2|]. exact I2. }
  - lia.
  - intros i f Hi (L & Ia & Ib). rewrite (rd_nth _ i z0) by (rewrite map_length; destruct Lp; lia). cbn [bind]. fold (flane i (map emb par)). rewrite flane_emb, emb_neg by (apply (lanes_get W _ _ i Lp); lia). destruct (lane i par <? 0)%Z eqn:C.
    + rewrite wr_Ok by lia. eexists. split; [reflexivity|]. rewrite length_upd. split; [exact L|]. split.
      * intros k Hk. destruct (Nat.eq_dec k i) as [->|Hne].
        -- rewrite C. rewrite nth_upd_eq, nth_upd_neq by lia. rewrite Ib by lia. auto.
        -- rewrite !nth_upd_neq by lia. apply Ia. lia.
      * intros j Hj. rewrite nth_upd_neq by lia. apply Ib. lia.
    + rewrite wr_Ok by lia. eexists. split; [reflexivity|]. rewrite length_upd. split; [exact L|]. split.
      * intros k Hk. destruct (Nat.eq_dec k i) as [->|Hne].
        -- rewrite C. rewrite nth_upd_eq, nth_upd_neq by lia. rewrite Ib by lia. auto.
        -- rewrite !nth_upd_neq by lia. apply Ia. lia.
      * intros j Hj. rewrite nth_upd_neq by lia. apply Ib. lia.
  - split; [exact Lf|]. split; [intros; lia|reflexivity].
Qed.

(** ** Selecting *)
Definition sortingf (fork : list spec_float) : list nat * list spec_float :=
  match insertion_sort_index SFltb (2 * W) (uninit nat (2 * W)) fork with
  | Ok (p, s) => (map (fun o => match o with Some x => x | None => 0 end) p, s)
  | _ => ([], [])
  end.
Definition self_metric (fork : list spec_float) : list spec_float := firstn W (snd (sortingf fork)).
Definition self_map (fork : list spec_float) : list Z := map (fun k => Z.of_nat (nth k (fst (sortingf fork)) 0 / 2)) (seq 0 W).
Definition self_bit (fork : list spec_float) : list Z := map (fun k => if Nat.even (nth k (fst (sortingf fork)) 0) then 1%Z else (-1)%Z) (seq 0 W).
Lemma sortingf_ok fork : length fork = 2 * W -> let '(p, s) := sortingf fork in
  insertion_sort_index SFltb (2 * W) (uninit nat (2 * W)) fork = Ok (map Some p, s) /\
  Permutation (seq 0 (2 * W)) p /\ length p = 2 * W /\ length s = 2 * W /\
  (forall i, i < 2 * W -> nth i p 0 < 2 * W /\ nth i s z0 = nth (nth i p 0) fork z0) /\
  (Forall notnan fork -> nondecreasingf s).
Proof.
  intros L. unfold sortingf. destruct (index_positions SFltb notnan ltb_asym ltb_negtrans fork (uninit nat (2 * W)) z0) as (p & s & E & PP & Lp & Ls & V & SS).
  { lia. }
  { unfold uninit. rewrite repeat_length. lia. }
  rewrite L in *. rewrite E. assert (map (fun o => match o with Some x => x | None => 0 end) (map Some p) = p) as -> by (rewrite map_map; apply map_id).
  split; [reflexivity|]. split; [exact PP|]. split; [exact Lp|]. split; [exact Ls|]. split; [exact V|]. intros F i j Hij Hj. rewrite Ls in Hj. apply SS; assumption.
Qed.
Lemma parity_of q : (1 - 2 * Z.land (Z.of_nat q) 1)%Z = if Nat.even q then 1%Z else (-1)%Z.
Proof.
  change 1%Z with (Z.ones 1) at 2. rewrite Z.land_ones by lia. change (2 ^ 1)%Z with 2%Z.
  destruct (Nat.even q) eqn:C.
  - apply Nat.even_spec in C. destruct C as (j & ->). replace (Z.of_nat (2 * j) mod 2)%Z with 0%Z; [reflexivity|]. symmetry. apply Z.mod_divide; [lia|]. exists (Z.of_nat j). lia.
  - assert (Nat.Odd q) as (j & ->) by (apply Nat.odd_spec; rewrite <- Nat.negb_even, C; reflexivity).
    replace (Z.of_nat (2 * j + 1) mod 2)%Z with 1%Z; [reflexivity|]. apply (Z.mod_unique _ _ (Z.of_nat j)); lia.
Qed.
Lemma selectf_ok metric fork : length metric = W -> length fork = 2 * W ->
  list_selectf prec emax ub W metric fork = Ok (self_metric fork, self_map fork, map emb (self_bit fork)).
Proof.
  intros Lm L. pose proof (sortingf_ok fork L) as S. unfold self_metric, self_map, self_bit. destruct (sortingf fork) as [p s]. destruct S as (E & PP & Lp & Ls & V & _).
  unfold list_selectf. rewrite E. cbn [bind fst snd].
  rewrite (fill_ok W 0 (fun i => nth i s z0)); [|lia|].
  2: { intros i cur Hi _. rewrite (rd_nth _ _ z0) by lia. reflexivity. }
  cbn [bind].
  rewrite (fill_lanesf_ok _ (fun k => Z.of_nat (nth k p 0 / 2))).
  2: { intros k Hk. rewrite (rdu_nth _ _ (nth k p 0)).
       2: { rewrite (nth_map1 _ _ _ 0) by lia. reflexivity. }
       cbn [bind]. f_equal. destruct (V k ltac:(lia)) as (Q & _). rewrite Z.shiftr_div_pow2 by lia. change (2 ^ 1)%Z with 2%Z.
       rewrite Nat2Z.inj_div. change (Z.of_nat 2) with 2%Z. unfold to_u. apply Z.mod_small.
       split; [apply Z.div_pos; lia|]. apply Z.div_lt_upper_bound; lia. }
  cbn [bind].
  rewrite (fill_lanesf_ok _ (fun k => emb (if Nat.even (nth k p 0) then 1%Z else (-1)%Z))).
  2: { intros k Hk. rewrite (rdu_nth _ _ (nth k p 0)).
       2: { rewrite (nth_map1 _ _ _ 0) by lia. reflexivity. }
       cbn [bind]. f_equal. rewrite parity_of. apply of_int_emb; [assumption..|]. unfold tern. destruct (Nat.even _); lia. }
  cbn [bind]. rewrite map_map. do 3 f_equal. rewrite <- (map_nth_seq (firstn W s) W z0) by (rewrite firstn_length; lia).
  apply (list_ext _ _ z0); [rewrite length_put; rewrite !map_length, !seq_length; lia|]. intros i Hi. rewrite length_put in Hi by (rewrite map_length, seq_length; lia).
  rewrite nth_put by (rewrite map_length, seq_length; lia). rewrite map_length, seq_length. replace ((0 <=? i) && (i <? 0 + W)) with true by lia.
  rewrite !nth_map_seq. replace (i - 0) with i by lia. replace (i <? W) with true by lia. rewrite nth_firstn'. cbn [Nat.add]. replace (i <? W) with true by lia. reflexivity.
Qed.
Lemma selectf_spec fork : length fork = 2 * W ->
  is_map W (self_map fork) /\ lanes_are W pm1 (self_bit fork) /\ length (self_metric fork) = W /\ (Forall notnan fork -> nondecreasingf (self_metric fork)) /\
  (forall k, k < W -> flane k (self_metric fork) = nth (fork_index (self_map fork) (self_bit fork) k) fork z0) /\
  (forall k l, k < W -> l < W -> k <> l -> fork_index (self_map fork) (self_bit fork) k <> fork_index (self_map fork) (self_bit fork) l) /\
  (Forall notnan fork -> forall j, j < 2 * W -> (exists k, k < W /\ fork_index (self_map fork) (self_bit fork) k = j) \/
     forall k, k < W -> SFltb (nth j fork z0) (flane k (self_metric fork)) = false).
Proof.
  intros L. pose proof (sortingf_ok fork L) as S. unfold self_metric, self_map, self_bit. destruct (sortingf fork) as [p s]. destruct S as (_ & PP & Lp & Ls & V & NS).
  cbn [fst snd]. set (mp := map (fun k => Z.of_nat (nth k p 0 / 2)) (seq 0 W)). set (bt := map (fun k => if Nat.even (nth k p 0) then 1%Z else (-1)%Z) (seq 0 W)).
  assert (forall k, k < W -> lane k mp = Z.of_nat (nth k p 0 / 2)) as Em.
  { intros k Hk. unfold lane, mp. rewrite nth_map_seq. replace (k <? W) with true by lia. reflexivity. }
  assert (forall k, k < W -> lane k bt = if Nat.even (nth k p 0) then 1%Z else (-1)%Z) as Eb.
  { intros k Hk. unfold lane, bt. rewrite nth_map_seq. replace (k <? W) with true by lia. reflexivity. }
  assert (forall k, k < W -> fork_index mp bt k = nth k p 0) as Ei.
  { intros k Hk. unfold fork_index, at_. rewrite Em, Eb by exact Hk. generalize (nth k p 0). intros q. rewrite Nat2Z.id.
    destruct (Nat.even q) eqn:C.
    - apply Nat.even_spec in C. destruct C as (j & ->). rewrite (Nat.mul_comm 2 j), Nat.div_mul by lia. change (1 =? 1)%Z with true. cbv iota. lia.
    - assert (Nat.Odd q) as (j & ->) by (apply Nat.odd_spec; rewrite <- Nat.negb_even, C; reflexivity).
      replace ((2 * j + 1) / 2) with j by (apply (Nat.div_unique _ _ _ 1); lia). change (-1 =? 1)%Z with false. cbv iota. lia. }
  split; [|split; [|split; [|split; [|split; [|split]]]]].
  - apply lanes_intro; [unfold mp; rewrite map_length, seq_length; reflexivity|]. intros k Hk. rewrite Em by exact Hk. destruct (V k ltac:(lia)) as (Q & _).
    split; [lia|]. apply Nat2Z.inj_lt. apply Nat.div_lt_upper_bound; lia.
  - apply lanes_intro; [unfold bt; rewrite map_length, seq_length; reflexivity|]. intros k Hk. rewrite Eb by exact Hk. unfold pm1. destruct (Nat.even _); auto.
  - rewrite firstn_length. lia.
  - intros F i j Hij Hj. rewrite firstn_length in Hj. rewrite !nth_firstn'. replace (i <? W) with true by lia. replace (j <? W) with true by lia. apply NS; [exact F|lia..].
  - intros k Hk. rewrite Ei by exact Hk. unfold flane. rewrite nth_firstn'. replace (k <? W) with true by lia. apply V. lia.
  - intros k l Hk Hl Hne. rewrite !Ei by assumption. intros E. apply Hne. assert (NoDup p) as ND by (eapply Permutation_NoDup; [exact PP|apply seq_NoDup]).
    rewrite (NoDup_nth p 0) in ND. apply ND; [lia|lia|exact E].
  - intros F j Hj. assert (In j p) as I by (eapply Permutation_in; [exact PP|apply in_seq; lia]). apply (In_nth _ _ 0) in I. destruct I as (k & Hk & Ek).
    destruct (Nat.lt_ge_cases k W) as [C|C].
    + left. exists k. split; [exact C|]. rewrite Ei by exact C. exact Ek.
    + right. intros i Hi. unfold flane. rewrite nth_firstn'. replace (i <? W) with true by lia. rewrite <- Ek. destruct (V k ltac:(lia)) as (_ & <-).
      apply NS; [exact F|lia..].
Qed.
End Width.
