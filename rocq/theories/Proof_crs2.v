(** Encoding and decoding of Model_crs over the field of the tables. *)
From Coq Require Import ZifyBool ZifyNat ZifyN Field.
From Verif Require Import Cpp Lib_list Model_gf Model_perm Model_crs Spec_gf Lib_gf2lin Lib_gf2poly Lib_gf Lib_field Lib_poly Proof_gf Proof_gffield Proof_crs1.
Local Open Scope N_scope.

Section S.
Variable G : gf.
Hypothesis OK : gf_ok G.
Notation Q := (2 ^ gf_M G).
Notation Q1 := (2 ^ gf_M G - 1).
Notation gp := (gpow (gf_M G) (gf_POLY G)).
Notation gm := (gmul (gf_M G) (gf_POLY G)).
Let HM := ok_M G OK.
Let HP := ok_P G OK.
Let F := gf_fld G OK.
Notation I := (inn G OK : N -> car F).
Add Field FF2 : (fth F).

Lemma I_xor x y : x < Q -> y < Q -> I (N.lxor x y) = fadd (I x) (I y).
Proof. intros Hx Hy. apply out_inj. cbn [F gf_fld fadd]. rewrite out_ga, !out_inn; try assumption. - reflexivity. - apply lxor_lt; assumption. Qed.
Lemma I_mul x y : x < Q -> y < Q -> I (gm x y) = fmul (I x) (I y).
Proof. intros Hx Hy. apply out_inj. cbn [F gf_fld fmul]. rewrite out_gmu, !out_inn; try assumption. - reflexivity. - apply gmul_lt; assumption. Qed.
Lemma I_inv x : x < Q -> I (ginv G x) = finv (I x).
Proof. intros Hx. apply out_inj. cbn [F gf_fld finv]. rewrite out_gi, !out_inn; try assumption. - reflexivity. - apply ginv_lt; exact OK. Qed.
Lemma I_inj x y : x < Q -> y < Q -> I x = I y -> x = y.
Proof. intros Hx Hy E. apply (f_equal (out G)) in E. rewrite !out_inn in E by assumption. exact E. Qed.
Lemma I_0 : I 0 = f0. Proof. reflexivity. Qed.
Lemma I_1 : I 1 = f1. Proof. reflexivity. Qed.

(** an exponent stands for the field element gp i *)
Definition ridx (i : N) (f : car F) : Prop := i < Q1 /\ I (gp i) = f.
Lemma gp_lt' i : gp i < Q. Proof. apply gp_lt. exact OK. Qed.
Lemma ridx_mul i j f g : ridx i f -> ridx j g -> exists k, i_mul G i j = Ok k /\ i_mul_assign G i j = Ok k /\ ridx k (fmul f g).
Proof.
  intros (Hi & Ei) (Hj & Ej). exists ((i + j) mod Q1). unfold i_mul_assign. rewrite !okI_ok, i_mul_ok by assumption. repeat split; try reflexivity.
  - apply N.mod_lt. pose proof (Q1p G OK). lia.
  - rewrite gp_mod, <- gp_add, I_mul by (try exact OK; apply gp_lt'). rewrite Ei, Ej. reflexivity.
Qed.
Lemma ridx_div i j f g : ridx i f -> ridx j g -> exists k, i_div G i j = Ok k /\ ridx k (fdiv f g).
Proof.
  intros (Hi & Ei) (Hj & Ej). exists ((i + (Q1 - j)) mod Q1). rewrite i_div_ok by assumption. split; [reflexivity|]. split.
  - apply N.mod_lt. pose proof (Q1p G OK). lia.
  - rewrite gp_div by assumption. rewrite I_mul, I_inv by (first [apply gp_lt' | apply ginv_lt; exact OK]). rewrite Ei, Ej. reflexivity.
Qed.
Lemma ridx_rcp i f : ridx i f -> exists k, i_rcp G i = Ok k /\ ridx k (finv f).
Proof.
  intros (Hi & Ei). exists ((Q1 - i) mod Q1). rewrite i_rcp_ok by assumption. split; [reflexivity|]. split; [apply N.mod_lt; pose proof (Q1p G OK); lia|].
  rewrite gp_mod by exact OK. rewrite <- (ginv_gp G OK) by assumption. rewrite I_inv by apply gp_lt'. rewrite Ei. reflexivity.
Qed.
Lemma ridx_index x : x < Q -> x <> 0 -> exists k, gf_index G x = Ok k /\ ridx k (I x).
Proof.
  intros Hx Nx. destruct (gp_ex G OK x Nx Hx) as (i & Hi & <-). exists i. rewrite index_ok by assumption. repeat split. exact Hi.
Qed.
Lemma ridx_one : ridx 0 f1.
Proof. split; [|reflexivity]. pose proof (Q1p G OK). lia. Qed.
Lemma mkI0 : mkIndex G 0 = Ok 0.
Proof. apply (mkI_ok G OK). pose proof (Q1p G OK). lia. Qed.
(** index(a + b) of two different values *)
Lemma index_sum a b : a < Q -> b < Q -> a <> b -> exists s k, v_add G a b = Ok s /\ gf_index G s = Ok k /\ ridx k (fadd (I a) (I b)).
Proof.
  intros Ha Hb Hn. exists (N.lxor a b). rewrite v_add_ok by assumption.
  destruct (ridx_index (N.lxor a b)) as (k & E & R); [apply lxor_lt; assumption| |].
  - intros E. apply (proj1 (lxor_eq0 _ _)) in E. contradiction.
  - exists k. rewrite <- I_xor by assumption. auto.
Qed.
Lemma crs_value_ok i : N.of_nat i < Q -> crs_value G i = Ok (N.of_nat i).
Proof.
  intros H. unfold crs_value. assert (Q <= 2 ^ gf_w G) by (apply N.pow_le_mono_r; [discriminate|apply (ok_w G OK)]).
  rewrite wrap_small by lia. apply (mkV_ok G OK). exact H.
Qed.

Variable ids : list N.
Variable n : nat.
Hypothesis LI : length ids = n.
Hypothesis ND : NoDup ids.
Hypothesis RI : forall id, In id ids -> N.of_nat n <= id /\ id < Q.
Definition xr (k : nat) : car F := I (nth k ids 0).
Definition yc (j : nat) : car F := I (N.of_nat j).

Lemma id_in k : (k < n)%nat -> N.of_nat n <= nth k ids 0 /\ nth k ids 0 < Q.
Proof. intros H. apply RI. apply nth_In. lia. Qed.
Lemma col_lt j : (j < n)%nat -> N.of_nat j < Q.
Proof. intros H. destruct (id_in j H). lia. Qed.
Lemma xr_inj i j : (i < n)%nat -> (j < n)%nat -> i <> j -> xr i <> xr j.
Proof.
  intros Hi Hj Hn E. apply I_inj in E; [|apply id_in; assumption..]. apply Hn.
  apply (proj1 (NoDup_nth ids 0) ND); [lia|lia|exact E].
Qed.
Lemma yc_inj i j : (i < n)%nat -> (j < n)%nat -> i <> j -> yc i <> yc j.
Proof. intros Hi Hj Hn E. apply I_inj in E; [|apply col_lt; assumption..]. lia. Qed.
Lemma xy_neq i j : (i < n)%nat -> (j < n)%nat -> fadd (xr i) (yc j) <> f0.
Proof.
  intros Hi Hj E. unfold xr, yc in E. destruct (id_in i Hi) as (H1 & H2). pose proof (col_lt j Hj) as H3. rewrite <- I_xor in E by assumption. rewrite <- I_0 in E.
  apply I_inj in E; [|apply lxor_lt; assumption|lia]. apply (proj1 (lxor_eq0 _ _)) in E. lia.
Qed.
Lemma rd_id k : (k < n)%nat -> rd ids k = Ok (nth k ids 0). Proof. intros H. apply rd_nth. lia. Qed.

Lemma cauchy_ok k j : (k < n)%nat -> (j < n)%nat -> exists q, crs_cauchy G (N.to_nat (nth k ids 0)) j = Ok q /\ ridx q (cauchy xr yc k j).
Proof.
  intros Hk Hj. destruct (id_in k Hk) as (H1 & H2). unfold crs_cauchy. rewrite crs_value_ok by lia. cbn [bind]. rewrite crs_value_ok by (apply col_lt; exact Hj). cbn [bind].
  rewrite N2Nat.id. destruct (index_sum (nth k ids 0) (N.of_nat j)) as (s & i & Es & Ei & R); [assumption|apply col_lt; exact Hj|lia|].
  rewrite Es. cbn [bind]. rewrite Ei. cbn [bind]. apply ridx_rcp. exact R.
Qed.

Definition row_ok (i : nat) (st : crs_state) : Prop :=
  exists num den, st = (Some num, Some den) /\ ridx num (fprod n (fun m => fadd (xr m) (yc i))) /\ ridx den (fprod_but n i (fun m => fsub (yc i) (yc m))).

Lemma inverse_ok i k st : (i < n)%nat -> (k < n)%nat -> (k <> 0%nat -> row_ok i st) ->
  exists q st', crs_inverse G ids i k n st = Ok (q, st') /\ ridx q (cauchy_inv n xr yc i k) /\ row_ok i st'.
Proof.
  intros Hi Hk Hst. unfold crs_inverse. rewrite crs_value_ok by (apply col_lt; exact Hi). cbn [bind].
  match goal with |- context [bind ?e _] => assert (ES : exists st', e = Ok st' /\ row_ok i st') end.
  { destruct (Nat.eqb_spec k 0) as [->|Nk]; [|exists st; auto]. rewrite mkI0. cbn [bind].
    edestruct (for_up_inv (fun m '((num, den) : N * N) =>
        ridx num (fprod m (fun m => fadd (xr m) (yc i))) /\ ridx den (fprod m (fun m => if (m =? i)%nat then f1 else fsub (yc i) (yc m))))) as ((num & den) & E & R1 & R2).
    4: { rewrite E. cbn [bind]. eexists. split; [reflexivity|]. exists num, den. auto. }
    - lia.
    - intros m (num & den) Hm (R1 & R2). cbv beta iota. rewrite crs_value_ok by (apply col_lt; lia). cbn [bind]. rewrite rd_id by lia. cbn [bind].
      destruct (id_in m ltac:(lia)) as (H1 & H2).
      destruct (index_sum (nth m ids 0) (N.of_nat i)) as (s & x & Es & Ex & R); [assumption|apply col_lt; exact Hi|lia|].
      rewrite Es. cbn [bind]. rewrite Ex. cbn [bind]. destruct (ridx_mul _ _ _ _ R1 R) as (num' & _ & E1 & R1'). rewrite E1. cbn [bind].
      destruct (Nat.eqb_spec m i) as [->|Nm].
      + eexists. split; [reflexivity|]. cbn [fprod]. split; [exact R1'|]. rewrite Nat.eqb_refl. replace (fmul (fprod i _) f1) with (fprod i (fun m => if (m =? i)%nat then f1 else fsub (yc i) (yc m))) by ring. exact R2.
      + destruct (index_sum (N.of_nat i) (N.of_nat m)) as (d & y & Ed & Ey & Ry); [apply col_lt; exact Hi|apply col_lt; lia|lia|].
        unfold v_sub. rewrite Ed. cbn [bind]. rewrite Ey. cbn [bind]. destruct (ridx_mul _ _ _ _ R2 Ry) as (den' & _ & E2 & R2'). rewrite E2. cbn [bind].
        eexists. split; [reflexivity|]. cbn [fprod]. split; [exact R1'|]. apply Nat.eqb_neq in Nm. rewrite Nm. exact R2'.
    - split; apply ridx_one. }
  destruct ES as (st' & ES & RS). change (bind (A := crs_state)) with (@bind (option N * option N) (N * crs_state)). rewrite ES. cbn [bind].
  pose proof RS as (num0 & den0 & -> & R1 & R2). cbn [get fst snd bind].
  edestruct (for_up_inv (fun m '((num, den) : N * N) =>
      ridx num (fmul (fprod n (fun m => fadd (xr m) (yc i))) (fprod m (fun m => fadd (xr k) (yc m)))) /\
      ridx den (fmul (fprod_but n i (fun m => fsub (yc i) (yc m))) (fprod m (fun m => if (m =? k)%nat then f1 else fsub (xr k) (xr m)))))) as ((num & den) & E & R1' & R2').
  4: { rewrite E. cbn [bind]. rewrite rd_id by lia. cbn [bind]. destruct (id_in k Hk) as (H1 & H2).
       destruct (index_sum (nth k ids 0) (N.of_nat i)) as (s & x & Es & Ex & R); [assumption|apply col_lt; exact Hi|lia|].
       rewrite Es. cbn [bind]. rewrite Ex. cbn [bind]. destruct (ridx_mul _ _ _ _ R R2') as (p & E1 & _ & Rp). rewrite E1. cbn [bind].
       destruct (ridx_div _ _ _ _ R1' Rp) as (q & E2 & Rq). rewrite E2. cbn [bind]. eexists _, _. split; [reflexivity|]. split; [exact Rq|exact RS]. }
  - lia.
  - intros m (num & den) Hm (S1 & S2). cbv beta iota. rewrite crs_value_ok by (apply col_lt; lia). cbn [bind]. rewrite (rd_id k) by lia. cbn [bind].
    destruct (id_in k Hk) as (H1 & H2). destruct (id_in m ltac:(lia)) as (H3 & H4).
    destruct (index_sum (nth k ids 0) (N.of_nat m)) as (s & x & Es & Ex & R); [assumption|apply col_lt; lia|lia|].
    rewrite Es. cbn [bind]. rewrite Ex. cbn [bind]. destruct (ridx_mul _ _ _ _ S1 R) as (num' & _ & E1 & S1'). rewrite E1. cbn [bind].
    assert (T1 : ridx num' (fmul (fprod n (fun m => fadd (xr m) (yc i))) (fprod (S m) (fun m => fadd (xr k) (yc m))))).
    { cbn [fprod]. match type of S1' with ridx _ ?a => match goal with |- ridx _ ?b => replace b with a; [exact S1'|] end end. unfold xr, yc. ring. }
    destruct (Nat.eqb_spec m k) as [->|Nm].
    + eexists. split; [reflexivity|]. split; [exact T1|]. cbn [fprod]. rewrite Nat.eqb_refl.
      match type of S2 with ridx _ ?a => match goal with |- ridx _ ?b => replace b with a; [exact S2|] end end. ring.
    + rewrite (rd_id m) by lia. cbn [bind].
      destruct (index_sum (nth k ids 0) (nth m ids 0)) as (d & y & Ed & Ey & Ry); [assumption|assumption| |].
      { intros Eq. apply Nm. symmetry. apply (proj1 (NoDup_nth ids 0) ND); [lia|lia|exact Eq]. }
      unfold v_sub. rewrite Ed. cbn [bind]. rewrite Ey. cbn [bind]. destruct (ridx_mul _ _ _ _ S2 Ry) as (den' & _ & E2 & S2'). rewrite E2. cbn [bind].
      eexists. split; [reflexivity|]. split; [exact T1|]. cbn [fprod]. apply Nat.eqb_neq in Nm. rewrite Nm.
      match type of S2' with ridx _ ?a => match goal with |- ridx _ ?b => replace b with a; [exact S2'|] end end. unfold xr. fold (xr k). change (@fsub F) with (@fadd F). ring.
  - cbn [fprod]. split.
    + match type of R1 with ridx _ ?a => match goal with |- ridx _ ?b => replace b with a; [exact R1|] end end. ring.
    + match type of R2 with ridx _ ?a => match goal with |- ridx _ ?b => replace b with a; [exact R2|] end end. ring.
Qed.

(** the accumulated linear combination of the first [m] blocks of [a] *)
Definition lin (c0 a : list N) (coff len : nat) (coef : nat -> car F) (m : nat) (o : list N) : Prop :=
  length o = length c0 /\ small G o /\
  (forall p, ~ (coff <= p < coff + len)%nat -> nth p o 0 = nth p c0 0) /\
  (m <> 0%nat -> forall t, (t < len)%nat -> I (nth (coff + t) o 0) = fsum m (fun k => fmul (coef k) (I (nth (len * k + t) a 0)))).

Lemma lin_0 c0 a coff len coef : small G c0 -> lin c0 a coff len coef 0 c0.
Proof. intros H. repeat split; auto. contradiction. Qed.

Lemma lin_step B al c0 a coff len coef m b o : lin c0 a coff len coef m o -> small G a -> ridx b (coef m) ->
  (coff + len <= length c0)%nat -> (len * (m + 1) <= length a)%nat ->
  exists o', mac G B al o coff a (len * m) b len (m =? 0)%nat = Ok o' /\ lin c0 a coff len coef (S m) o'.
Proof.
  intros (L1 & L2 & L3 & L4) Ha (Hb & Eb) Hc Hl.
  destruct (mac_ok G OK B al o coff a (len * m) b len (m =? 0)%nat Ha L2 Hb) as (o' & E & R); [lia|lia|].
  exists o'. split; [exact E|]. pose proof (mac_rel_small G OK _ _ _ _ _ _ _ _ L2 Ha R) as S'. destruct R as (R1 & R2).
  split; [congruence|]. split; [exact S'|]. split.
  - intros p Hp. rewrite R2. destruct (Nat.leb_spec coff p), (Nat.ltb_spec p (coff + len)); cbn [andb]; try (apply L3; exact Hp). lia.
  - intros _ t Ht. rewrite R2. destruct (Nat.leb_spec coff (coff + t)); [|lia]. destruct (Nat.ltb_spec (coff + t) (coff + len)); [|lia]. cbn [andb].
    replace (coff + t - coff)%nat with t by lia. assert (Hx : nth (len * m + t) a 0 < Q) by (apply small_nth; assumption).
    assert (Hy : nth (coff + t) o 0 < Q) by (apply small_nth; assumption). cbn [fsum]. unfold mach. destruct (Nat.eqb_spec m 0) as [->|Nm].
    + rewrite I_mul by (try assumption; apply gp_lt'). rewrite Eb. cbn [fsum]. ring.
    + rewrite I_xor, I_mul by (try assumption; first [apply gp_lt' | apply gmul_lt; try assumption; apply gp_lt']). rewrite Eb, L4 by assumption. ring.
Qed.

Lemma encode_ok B al data block boff k len : (k < n)%nat -> small G data -> small G block -> (len * n <= length data)%nat -> (boff + len <= length block)%nat ->
  exists o, crs_encode G B al data block boff (N.to_nat (nth k ids 0)) len n = Ok o /\ lin block data boff len (cauchy xr yc k) n o.
Proof.
  intros Hk Hd Hb Ld Lb. unfold crs_encode. destruct (id_in k Hk) as (H1 & H2).
  assert (EA : ((n <=? N.to_nat (nth k ids 0%N))%nat && (N.of_nat (N.to_nat (nth k ids 0)) <=? gf_N G)) = true).
  { rewrite N2Nat.id. unfold gf_N, gf_Q. apply andb_true_intro. split; [apply Nat.leb_le; lia|apply N.leb_le; lia]. }
  rewrite EA. cbn [assert_ bind].
  edestruct (for_up_inv (fun m o => lin block data boff len (cauchy xr yc k) m o)) as (o & E & R).
  4: { exists o. split; [exact E|exact R]. }
  - lia.
  - intros m o Hm R. cbv beta. destruct (cauchy_ok k m Hk ltac:(lia)) as (q & Eq & Rq). rewrite Eq. cbn [bind].
    apply lin_step; try assumption. nia.
  - apply lin_0. exact Hb.
Qed.

Lemma decode_ok B al data doff blocks i len st : (i < n)%nat -> small G data -> small G blocks -> (len * n <= length blocks)%nat -> (doff + len <= length data)%nat ->
  exists o st', crs_decode G B al data doff blocks ids i len n st = Ok (o, st') /\ lin data blocks doff len (cauchy_inv n xr yc i) n o.
Proof.
  intros Hi Hd Hb Ld Lb. unfold crs_decode.
  edestruct (for_up_inv (fun m '((o, st) : list N * crs_state) => (m <> 0%nat -> row_ok i st) /\ lin data blocks doff len (cauchy_inv n xr yc i) m o)) as ((o & st') & E & _ & R).
  4: { exists o, st'. split; [exact E|exact R]. }
  - lia.
  - intros m (o & st0) Hm (RS & R). cbv beta iota. destruct (inverse_ok i m st0 Hi ltac:(lia) RS) as (q & st1 & Eq & Rq & RS1). rewrite Eq. cbn [bind].
    destruct (lin_step B (al m) data blocks doff len (cauchy_inv n xr yc i) m q o) as (o' & Eo & Ro); try assumption; [nia|].
    rewrite Eo. cbn [bind]. exists (o', st1). split; [reflexivity|]. split; [intros _; exact RS1|exact Ro].
  - split; [contradiction|]. apply lin_0. exact Hd.
Qed.

Lemma encode_all_ok B al data blocks0 len : small G data -> small G blocks0 -> (len * n <= length data)%nat -> length blocks0 = (len * n)%nat ->
  exists blocks, crs_encode_all G B al data blocks0 ids len n = Ok blocks /\ length blocks = (len * n)%nat /\ small G blocks /\
    forall k t, (k < n)%nat -> (t < len)%nat -> I (nth (len * k + t) blocks 0) = fsum n (fun m => fmul (cauchy xr yc k m) (I (nth (len * m + t) data 0))).
Proof.
  intros Hd Hb Ld Lb. unfold crs_encode_all.
  edestruct (for_up_inv (fun i bl => length bl = (len * n)%nat /\ small G bl /\
    forall k t, (k < i)%nat -> (t < len)%nat -> I (nth (len * k + t) bl 0) = fsum n (fun m => fmul (cauchy xr yc k m) (I (nth (len * m + t) data 0))))) as (o & E & R).
  4: { exists o. split; [exact E|exact R]. }
  - lia.
  - intros i bl Hi (L & S' & R). cbv beta. rewrite rd_id by lia. cbn [bind].
    destruct (encode_ok B (al i) data bl (len * i) i len) as (o & E & (R1 & R2 & R3 & R4)); try assumption; [lia|nia|].
    exists o. split; [exact E|]. split; [congruence|]. split; [exact R2|]. intros k t Hk Ht. destruct (Nat.eq_dec k i) as [->|Nk].
    + apply R4; [lia|exact Ht].
    + rewrite R3 by nia. apply R; [lia|exact Ht].
  - split; [exact Lb|]. split; [exact Hb|]. intros; lia.
Qed.

Lemma decode_symbol data0 data blocks doff len i o : (i < n)%nat -> small G data ->
  (forall k t, (k < n)%nat -> (t < len)%nat -> I (nth (len * k + t) blocks 0) = fsum n (fun m => fmul (cauchy xr yc k m) (I (nth (len * m + t) data 0)))) ->
  lin data0 blocks doff len (cauchy_inv n xr yc i) n o ->
  forall t, (t < len)%nat -> nth (doff + t) o 0 = nth (len * i + t) data 0.
Proof.
  intros Hi Hd HB (R1 & R2 & R3 & R4) t Ht.
  apply I_inj; [apply small_nth; assumption..|]. rewrite R4 by (try exact Ht; lia).
  rewrite (fsum_ext _ n _ (fun k => fsum n (fun m => fmul (fmul (cauchy_inv n xr yc i k) (cauchy xr yc k m)) (I (nth (len * m + t) data 0))))).
  - rewrite fsum_swap. rewrite (fsum_ext _ n _ (fun m => fmul (if (i =? m)%nat then f1 else f0) (I (nth (len * m + t) data 0)))).
    + rewrite (fsum_single _ n _ i) by (try lia; intros m _ Hm; apply Nat.neq_sym, Nat.eqb_neq in Hm; rewrite Hm; ring). rewrite Nat.eqb_refl. ring.
    + intros m Hm. rewrite fsum_scale_r. rewrite cauchy_inv_spec; try assumption; try lia.
      * reflexivity.
      * intros; apply xr_inj; lia.
      * intros; apply yc_inj; lia.
      * intros; apply xy_neq; lia.
  - intros k Hk'. rewrite HB by assumption. rewrite <- fsum_scale. apply fsum_ext. intros m Hm. ring.
Qed.

Lemma decode_all_ok B al data0 data blocks len st : small G data -> small G data0 -> small G blocks -> length data = (len * n)%nat -> length data0 = (len * n)%nat -> length blocks = (len * n)%nat ->
  (forall k t, (k < n)%nat -> (t < len)%nat -> I (nth (len * k + t) blocks 0) = fsum n (fun m => fmul (cauchy xr yc k m) (I (nth (len * m + t) data 0)))) ->
  crs_decode_all G B al data0 blocks ids len n st = Ok data.
Proof.
  intros Hd Hd0 Hb Ld Ld0 Lb HB. unfold crs_decode_all.
  edestruct (for_up_inv (fun i '((o, st) : list N * crs_state) => length o = (len * n)%nat /\ small G o /\
    forall k t, (k < i)%nat -> (t < len)%nat -> nth (len * k + t) o 0 = nth (len * k + t) data 0)) as ((o & st') & E & L & S' & R).
  4: { change (bind (A := list N * crs_state)) with (@bind (list N * crs_state) (list N)). rewrite E. cbn [bind]. f_equal. apply (list_ext _ _ 0); [congruence|].
       intros p Hp. assert (Nl : len <> 0%nat) by lia. rewrite (Nat.div_mod p len Nl). apply R; [|apply Nat.mod_upper_bound; exact Nl].
       apply Nat.div_lt_upper_bound; [exact Nl|]. lia. }
  - lia.
  - intros i (o & st0) Hi (L & S' & R). cbv beta iota.
    destruct (decode_ok B (al i) o (len * i) blocks i len st0) as (o' & st1 & E & (R1 & R2 & R3 & R4)); try assumption; [lia|nia|nia|].
    exists (o', st1). split; [exact E|]. split; [congruence|]. split; [exact R2|]. intros k t Hk Ht. destruct (Nat.eq_dec k i) as [->|Nk].
    2: { rewrite R3 by nia. apply R; [lia|exact Ht]. }
    apply (decode_symbol o data blocks (len * i) len i o'); try assumption; try lia. unfold lin. auto.
  - split; [exact Ld0|]. split; [exact Hd0|]. intros; lia.
Qed.
End S.
