(** Proofs about Model_sbch: which positions the soft decoder flips, and what that guarantees. *)
From Coq Require Import ZifyBool ZifyNat ZifyN.
From Verif Require Import Cpp Lib_list Model_sbch Spec_gf Spec_wht Spec_sbch Spec_chase Lib_gf2lin Lib_gf2poly Lib_gf Lib_wht Proof_sbch Proof_sbch2 Prop_sbch.
Ltac Zify.zify_post_hook ::= idtac.
Local Open Scope Z_scope.

Section Worst.
Variables n t : nat.
Hypothesis Hn : (1 <= n)%nat.
Hypothesis Ht : (1 <= t)%nat.
Variable soft : list Z.
Hypothesis HL : length soft = n.
Notation a p := (Z.abs (nth p soft 0)).
Notation W w i := (Z.to_nat (nth i w 0)).
Notation bt := (weaker soft).

Definition inv (k : nat) (w : list Z) : Prop :=
  length w = t /\
  (forall i, (i < t)%nat -> 0 <= nth i w 0 < Z.of_nat n /\ (nth i w 0 = 0 \/ nth i w 0 < Z.of_nat k)) /\
  (forall i j, (i < j < t)%nat -> bt (W w i) (W w j) \/ (W w i = 0 /\ W w j = 0)%nat) /\
  (forall p, (p < k)%nat -> a p <= a 0%nat -> (exists i, (i < t)%nat /\ W w i = p) \/ (forall i, (i < t)%nat -> bt (W w i) p)).

Lemma inv_0 : inv 0 (repeat 0 t).
Proof.
  assert (N0 : forall i, nth i (repeat 0 t) 0 = 0). { intros i. apply nth_repeat. }
  split; [apply repeat_length|]. split; [intros i Hi; rewrite N0; lia|]. split; [|intros p Hp; lia].
  intros i j Hij. right. rewrite !N0. auto.
Qed.

Lemma find_place w kk : length w = t -> (forall i, (i < t)%nat -> 0 <= nth i w 0 < Z.of_nat n) -> (kk < n)%nat ->
  exists j, while_ (S t) (fun j => if (j <? t)%nat then (w <- rd w j ;; cw <- rdZ soft w ;; Ok (Z.abs cw <? Z.abs (nth kk soft 0))) else Ok false)
         (fun j => Ok (S j)) 0%nat = Ok j /\ (j <= t)%nat /\ (forall i, (i < j)%nat -> a (W w i) < a kk) /\ ((j < t)%nat -> a kk <= a (W w j)).
Proof.
  intros LW FW Hkk.
  edestruct (while_inv (fun j => (j <= t)%nat /\ (forall i, (i < j)%nat -> a (W w i) < a kk)) (fun j => (t - j)%nat)) as (j & E & (Hj & Hb) & Hex).
  4: { exists j. split; [exact E|]. split; [exact Hj|]. split; [exact Hb|]. intros Hjt. cbv beta in Hex.
       destruct (Nat.ltb_spec j t); [|lia]. specialize (FW j Hjt).
       rewrite (rd_nth w j 0) in Hex by lia. cbn [bind] in Hex. rewrite (rdZ_nth soft _ 0) in Hex by lia. cbn [bind] in Hex.
       injection Hex as Hex. lia. }
  - intros j (Hj & Hb). cbv beta. destruct (Nat.ltb_spec j t) as [Hjt|Hjt].
    + specialize (FW j Hjt).
      rewrite (rd_nth w j 0) by lia. cbn [bind]. rewrite (rdZ_nth soft _ 0) by lia. cbn [bind]. eexists. split; [reflexivity|]. intros Hc.
      eexists. split; [reflexivity|]. split; [split; [lia|]|lia]. intros i Hi. destruct (Nat.eq_dec i j) as [->|]; [lia|apply Hb; lia].
    + eexists. split; [reflexivity|]. discriminate.
  - split; [lia|]. intros i Hi. lia.
  - lia.
Qed.

Lemma shift_ok (w : list Z) j : length w = t -> (j < t)%nat ->
  exists w', for_down t (S j) (fun i worst => w <- rd worst (i - 1) ;; wr worst i w) w = Ok w' /\ length w' = t /\
    forall q, (q < t)%nat -> nth q w' 0 = if (q <=? j)%nat then nth q w 0 else nth (q - 1) w 0.
Proof.
  intros LW Hj.
  edestruct (for_down_inv (fun i (v : list Z) => length v = t /\ forall q, (q < t)%nat -> nth q v 0 = if (q <? i)%nat then nth q w 0 else nth (q - 1) w 0)) as (w' & E' & L' & N').
  4: { exists w'. split; [exact E'|]. split; [exact L'|]. intros q Hq. rewrite N' by exact Hq. replace (q <? S j)%nat with (q <=? j)%nat by lia. reflexivity. }
  - lia.
  - intros i v Hi (Lv & Nv). cbv beta. rewrite (rd_nth v _ 0) by lia. cbn [bind]. rewrite wr_Ok by lia. eexists. split; [reflexivity|].
    split; [rewrite length_upd; exact Lv|]. intros q Hq. rewrite nth_upd. rewrite (Nv (i - 1)%nat) by lia. rewrite (Nv q Hq).
    destruct (Nat.eqb_spec i q) as [<-|Hne].
    + replace (i <? length v)%nat with true by lia. cbn [andb]. replace (i - 1 <? S i)%nat with true by lia. replace (i <? i)%nat with false by lia. reflexivity.
    + cbn [andb]. destruct (Nat.ltb_spec q (S i)), (Nat.ltb_spec q i); try lia; reflexivity.
  - split; [exact LW|]. intros q Hq. replace (q <? t)%nat with true by lia. reflexivity.
Qed.

Lemma bt_trans x y z : bt x y -> bt y z -> bt x z.
Proof. unfold weaker. lia. Qed.

Lemma worst_inv : exists w, sb_worst n t soft = Ok w /\ inv n w.
Proof.
  unfold sb_worst.
  edestruct (for_up_inv inv) as (w & E & I).
  4: { exists w. split; [exact E|exact I]. }
  - lia.
  - intros k w Hk (LW & RW & AW & BW). cbv beta. rewrite (rd_nth soft k 0) by lia. cbn [bind].
    destruct (find_place w k LW (fun i Hi => proj1 (RW i Hi)) ltac:(lia)) as (j & Ej & Hj & Hlt & Hge). rewrite Ej. cbn [bind].
    destruct (Nat.ltb_spec j t) as [Hjt|Hjt].
    + destruct (shift_ok w j LW Hjt) as (w' & E' & L' & N'). rewrite E'. cbn [bind]. rewrite wr_Ok by lia. eexists. split; [reflexivity|].
      set (v := upd w' j (Z.of_nat k)).
      assert (Nv : forall q, (q < t)%nat -> nth q v 0 = if (q <? j)%nat then nth q w 0 else if (q =? j)%nat then Z.of_nat k else nth (q - 1) w 0).
      { intros q Hq. unfold v. rewrite nth_upd. rewrite (N' q Hq). replace (j <? length w')%nat with true by lia. rewrite andb_true_r.
        destruct (Nat.eqb_spec j q), (Nat.eqb_spec q j), (Nat.ltb_spec q j), (Nat.leb_spec q j); try lia; reflexivity. }
      assert (LV : length v = t) by (unfold v; rewrite length_upd; exact L').
      clearbody v. specialize (Hge Hjt).
      (* entries from the place on are not weaker than the new one *)
      assert (T : forall i, (j <= i < t)%nat -> bt k (W w i) \/ (k = 0 /\ W w i = 0)%nat).
      { intros i Hi. pose proof (RW i ltac:(lia)) as (R1 & R2).
        assert (a k <= a (W w i)).
        { destruct (Nat.eq_dec i j) as [->|]; [exact Hge|]. destruct (AW j i ltac:(lia)) as [H|(H1 & H2)]; [unfold weaker in H; lia|rewrite H1 in Hge; rewrite H2; exact Hge]. }
        unfold weaker. destruct (Nat.eq_dec k 0) as [->|]; [destruct R2; [right; lia|lia]|left].
        destruct R2 as [R2|R2]; [rewrite R2 in *|]; lia. }
      split; [exact LV|]. split; [|split].
      * intros i Hi. rewrite (Nv i Hi). destruct (Nat.ltb_spec i j); [specialize (RW i ltac:(lia)); lia|].
        destruct (Nat.eqb_spec i j); [lia|]. specialize (RW (i - 1)%nat ltac:(lia)). lia.
      * intros i i' Hi. rewrite (Nv i ltac:(lia)), (Nv i' ltac:(lia)).
        destruct (Nat.ltb_spec i j) as [Hij|Hij], (Nat.ltb_spec i' j) as [Hij'|Hij']; try lia.
        -- apply AW. lia.
        -- destruct (Nat.eqb_spec i' j) as [->|]; [|apply AW; lia]. left. left. rewrite Nat2Z.id. apply Hlt. exact Hij.
        -- destruct (Nat.eqb_spec i' j); [lia|]. destruct (Nat.eqb_spec i j) as [->|]; [|apply AW; lia].
           rewrite Nat2Z.id. apply T. lia.
      * intros p Hp Hp0.
        assert (D : forall m, (exists i, (i < m)%nat /\ W v i = p) \/ (forall i, (i < m)%nat -> W v i <> p)).
        { induction m as [|m IH]; [right; intros i Hi; lia|]. destruct IH as [(i & Hi & E)|IH]; [left; exists i; split; [lia|exact E]|].
          destruct (Nat.eq_dec (W v m) p) as [E|E]; [left; exists m; auto|right]. intros i Hi. destruct (Nat.eq_dec i m) as [->|]; [exact E|apply IH; lia]. }
        destruct (D t) as [D'|D']; [left; exact D'|right]. clear D.
        assert (pk : p <> k).
        { intros ->. apply (D' j Hjt). rewrite (Nv j Hjt). replace (j <? j)%nat with false by lia. replace (j =? j)%nat with true by lia. lia. }
        (* the old entries that survive *)
        assert (Surv : forall i, (i < t - 1)%nat -> W w i <> p).
        { intros i Hi E. destruct (Nat.ltb_spec i j) as [Q|Q].
          - apply (D' i ltac:(lia)). rewrite (Nv i ltac:(lia)). replace (i <? j)%nat with true by lia. exact E.
          - apply (D' (S i) ltac:(lia)). rewrite (Nv (S i) ltac:(lia)). replace (S i <? j)%nat with false by lia. replace (S i =? j)%nat with false by lia.
            replace (S i - 1)%nat with i by lia. exact E. }
        assert (All : (forall i, (i < t - 1)%nat -> bt (W w i) p) /\ bt k p).
        { destruct (BW p ltac:(lia) Hp0) as [(i & Hi & E)|H].
          - assert (i = t - 1)%nat.
            { destruct (Nat.eq_dec i (t - 1)) as [|Hne]; [assumption|]. exfalso. apply (Surv i ltac:(lia)). exact E. }
            subst i. split.
            + intros i Hi'. destruct (AW i (t - 1)%nat ltac:(lia)) as [H|(H1 & H2)]; [rewrite E in H; exact H|].
              exfalso. apply (Surv i Hi'). lia.
            + destruct (T (t - 1)%nat ltac:(lia)) as [H|(H1 & H2)]; [rewrite E in H; exact H|lia].
          - split; [intros i Hi; apply H; lia|]. pose proof (H j Hjt) as Hb. unfold weaker in *. lia. }
        destruct All as (All & Hkp).
        intros i Hi. rewrite (Nv i Hi). destruct (Nat.ltb_spec i j); [apply All; lia|].
        destruct (Nat.eqb_spec i j); [rewrite Nat2Z.id; exact Hkp|]. apply All. lia.
    + replace (for_down t (S j) _ w) with (Ok w) by (unfold for_down; replace (t - S j)%nat with 0%nat by lia; reflexivity). cbn [bind].
      eexists. split; [reflexivity|]. split; [exact LW|]. split; [|split; [exact AW|]].
      * intros i Hi. specialize (RW i Hi). lia.
      * intros p Hp Hp0. destruct (Nat.eq_dec p k) as [->|]; [right|apply BW; lia]. intros i Hi. left. apply Hlt. lia.
  - exact inv_0.
Qed.

Lemma worst_has w p : inv n w -> weak_position t soft p -> exists i, (i < t)%nat /\ W w i = p.
Proof.
  intros (LW & RW & AW & BW) (Hp & Hp0 & Hc). rewrite HL in Hp.
  destruct (BW p Hp Hp0) as [H|H]; [exact H|exfalso].
  assert (Z0 : forall i, (i < t)%nat -> W w i <> 0%nat).
  { intros i Hi E. specialize (H i Hi). rewrite E in H. unfold weaker in H. lia. }
  enough (length (map (fun i => W w i) (seq 0 t)) < t)%nat by (rewrite map_length, seq_length in *; lia).
  apply Hc.
  - assert (G : forall m b, (b + m <= t)%nat -> NoDup (map (fun i => W w i) (seq b m))).
    { induction m as [|m IH]; intros b Hb; cbn [seq map]; constructor; [|apply IH; lia].
      intros I. apply in_map_iff in I. destruct I as (i & E & I). apply in_seq in I.
      destruct (AW b i ltac:(lia)) as [Q|(Q1 & Q2)]; [unfold weaker in Q; rewrite E in Q; lia|]. exact (Z0 b ltac:(lia) Q1). }
    apply G. lia.
  - intros q I. apply in_map_iff in I. destruct I as (i & <- & I). apply in_seq in I. split; [|apply H; lia].
    specialize (RW i ltac:(lia)). lia.
Qed.
End Worst.

Section Chase.
Variables n k t : nat.
Variable g : N.
Hypothesis Hk : (1 <= k < n)%nat.
Hypothesis Hn : (n <= 31)%nat.
Hypothesis Hp : (n - k <= 15)%nat.
Hypothesis HG : has_degree g (N.of_nat (n - k)).
Hypothesis Ht : (1 <= t <= 3)%nat.
Variable par : list (option Z).
Variable err : list Z.
Hypothesis HPar : parOK n k g par.
Hypothesis HErr : einv n k g t (fun e => (e <> 0)%N /\ (e < 2 ^ N.of_nat n)%N /\ (ones e <= t)%nat) err.
Variable soft : list Z.
Hypothesis HL : length soft = n.
Hypothesis HB : Forall int8 soft.
Notation cwd := (codeword n g).
Notation mt := (met n soft).
Notation signs := (signs soft).
Notation signs_lt := (signs_lt soft).
Notation W w i := (Z.to_nat (nth i w 0)).
Notation candidate := (candidate n g).

Lemma flips_bits w j : length w = t -> Forall (fun x => 0 <= x < Z.of_nat n) w ->
  exists y, for_up 0 t (fun i tmp => w <- rd w i ;; x <- shl (Z.land (Z.shiftr (Z.of_nat j) (Z.of_nat i)) 1) (Z.to_nat w) ;; Ok (Z.lor tmp x)) 0 = Ok (Z.of_N y) /\ (y < 2 ^ N.of_nat n)%N /\
    forall b, N.testbit y b = true <-> exists i, (i < t)%nat /\ N.testbit (N.of_nat j) (N.of_nat i) = true /\ b = N.of_nat (W w i).
Proof.
  intros LW FW.
  edestruct (for_up_inv (fun m s => exists y, s = Z.of_N y /\ (y < 2 ^ N.of_nat n)%N /\
     forall b, N.testbit y b = true <-> exists i, (i < m)%nat /\ N.testbit (N.of_nat j) (N.of_nat i) = true /\ b = N.of_nat (W w i))) as (s & E & y & -> & B).
  4: { exists y. split; [exact E|exact B]. }
  - lia.
  - intros i s Hi (y & -> & By & Ty). cbv beta. rewrite (rd_nth w i 0) by lia. cbn [bind].
    assert (B : 0 <= nth i w 0 < Z.of_nat n) by (apply (proj1 (Forall_nth (fun x => 0 <= x < Z.of_nat n) w) FW); lia).
    rewrite <- nat_N_Z, Z_shiftr_N. change 1 with (Z.of_N 1). rewrite Z_land_N.
    assert (EB : N.land (N.shiftr (N.of_nat j) (N.of_nat i)) 1 = N.b2n (N.testbit (N.of_nat j) (N.of_nat i))).
    { rewrite (N.land_ones _ 1 : N.land _ 1 = _). change (2 ^ 1)%N with 2%N. rewrite <- N.bit0_mod, N.shiftr_spec', N.add_0_l. reflexivity. }
    set (b := N.land (N.shiftr (N.of_nat j) (N.of_nat i)) 1) in *.
    assert (Bb : (b < 2)%N). { rewrite EB. destruct (N.testbit _ _); cbn; lia. }
    rewrite (shl_ok b _ 1) by (exact Bb || lia). cbn [bind]. rewrite Z_lor_N. eexists. split; [reflexivity|]. eexists. split; [reflexivity|].
    split.
    + apply tb_lt. intros q Hq. rewrite N.lor_spec, (tb_ge y (N.of_nat n)) by assumption.
      apply (tb_ge _ (N.of_nat n)); [|exact Hq]. eapply N.lt_le_trans; [apply (shiftl_lt b _ 1); exact Bb|]. apply N.pow_le_mono_r; lia.
    + intros q. rewrite N.lor_spec, orb_true_iff, Ty, EB.
      destruct (N.testbit (N.of_nat j) (N.of_nat i)) eqn:TJ; cbn [N.b2n].
      * rewrite N.shiftl_1_l, N.pow2_bits_eqb. split.
        -- intros [(m & M1 & M2 & M3)|H]; [exists m; split; [lia|auto]|]. exists i. split; [lia|]. split; [exact TJ|]. lia.
        -- intros (m & M1 & M2 & M3). destruct (Nat.eq_dec m i) as [->|]; [right; lia|left; exists m; split; [lia|auto]].
      * rewrite N.shiftl_0_l, N.bits_0. split.
        -- intros [(m & M1 & M2 & M3)|H]; [exists m; split; [lia|auto]|discriminate].
        -- intros (m & M1 & M2 & M3). destruct (Nat.eq_dec m i) as [->|]; [congruence|left; exists m; split; [lia|auto]].
  - exists 0%N. split; [reflexivity|]. split; [apply pow2_nz|]. intros b. rewrite N.bits_0. split; [discriminate|]. intros (i & Hi & _). lia.
Qed.

(** the number whose bit i says whether worst[i] is to be flipped *)
Fixpoint pick (S : N) (w : list Z) : N :=
  match w with [] => 0%N | x :: w => (N.b2n (N.testbit S (Z.to_N x)) + 2 * pick S w)%N end.
Lemma pick_lt S w : (pick S w < 2 ^ N.of_nat (length w))%N.
Proof.
  induction w as [|x w IH]; [reflexivity|]. cbn [pick length]. rewrite Nat2N.inj_succ, N.pow_succ_r'. destruct (N.testbit S _); cbn [N.b2n]; lia.
Qed.
Lemma pick_bit S w : forall i, (i < length w)%nat -> N.testbit (pick S w) (N.of_nat i) = N.testbit S (Z.to_N (nth i w 0)).
Proof.
  induction w as [|x w IH]; intros i Hi; [cbn in Hi; lia|]. cbn [pick]. rewrite N.add_comm. destruct i as [|i].
  - cbn [nth N.of_nat]. apply N.testbit_0_r.
  - rewrite Nat2N.inj_succ, N.testbit_succ_r. apply IH. cbn in Hi. lia.
Qed.

Lemma soft_chase c S : (4 < k)%nat -> cwd c -> (forall c', cwd c' -> c' <> c -> mt c' < mt c) ->
  min_distance n g (2 * t + 1) ->
  (forall b, N.testbit S b = true -> weak_position t soft (N.to_nat b)) ->
  (distance (N.lxor (signs n) S) c <= t)%nat ->
  sb_soft n k t par err soft = Ok (Z.of_N c).
Proof.
  intros Hk4 HC Hbest HD HS Hdist.
  assert (H0 : 0 <= mt c).
  { destruct (N.eq_dec 0 c) as [<-|Hne]; [rewrite met_0; lia|]. specialize (Hbest 0%N (cwd_0 n g) Hne). rewrite met_0 in Hbest. lia. }
  (* whatever is decoded from a word at distance at most t is c *)
  assert (Dec : forall x h, (x < 2 ^ N.of_nat n)%N -> (distance x c <= t)%nat -> sb_hard n k par err (Z.of_N x) = Ok h -> h = Z.of_N c).
  { intros x h Hx Hd E. destruct (hard_dec n k t g Hk Hn Hp HG par err HPar HErr x Hx) as (r & E' & R). rewrite E in E'. injection E' as <-.
    destruct R as [(c' & -> & HC' & Hd')|(-> & Hno)]; [|specialize (Hno c HC); lia]. f_equal.
    destruct (N.eq_dec c' c) as [Q|Q]; [exact Q|]. specialize (HD c' c HC' HC Q).
    assert (TR : (distance c' c <= distance x c' + distance x c)%nat).
    { unfold distance. replace (N.lxor c' c) with (N.lxor (N.lxor x c') (N.lxor x c)).
      - apply ones_lxor.
      - rewrite (N.lxor_comm x c'), N.lxor_assoc, <- (N.lxor_assoc x x c), N.lxor_nilpotent, N.lxor_0_l. reflexivity. }
    lia. }
  set (J := fun (seen : Prop) (s : Z * Z * Z) => let '(word, best, next) := s in
     (word = -1 /\ best = -1 \/ exists d, word = Z.of_N d /\ cwd d /\ best = mt d) /\ next < mt c /\ (seen -> word = Z.of_N c)).
  assert (ST : forall (P Q : Prop) h s, candidate h -> J P s -> (Q -> P \/ h = Z.of_N c) -> exists s', sb_update n soft h s = Ok s' /\ J Q s').
  { intros P Q h [[word best] next] Hh (HW & HN & HP) HPQ. unfold sb_update. destruct (Z.eqb_spec h word) as [E|E].
    { eexists. split; [reflexivity|]. split; [exact HW|]. split; [exact HN|]. intros q. destruct (HPQ q) as [p|p]; [apply HP; exact p|congruence]. }
    destruct (metric_cand n g Hn soft HL HB h Hh) as (m & Em & HM). rewrite Em. cbn [bind]. eexists. split; [reflexivity|].
    assert (best <= mt c /\ (best = mt c -> word = Z.of_N c)) as (Lb & Ub).
    { destruct HW as [(-> & ->)|(d & -> & Cd & ->)]; [lia|]. destruct (N.eq_dec d c) as [->|Q']; [auto with zarith|]. specialize (Hbest d Cd Q'). lia. }
    assert (Lm : m <= mt c /\ (m = mt c -> h = Z.of_N c)).
    { destruct HM as [(-> & ->)|(d & -> & Cd & ->)]; [lia|]. destruct (N.eq_dec d c) as [->|Q']; [auto with zarith|]. specialize (Hbest d Cd Q'). lia. }
    assert (Hhc : h = Z.of_N c -> m = mt c).
    { intros ->. destruct HM as [(Q' & _)|(d & Q' & Cd & ->)]; [lia|]. f_equal. lia. }
    assert (Hwc : word = Z.of_N c -> best = mt c).
    { intros ->. destruct HW as [(Q' & _)|(d & Q' & Cd & ->)]; [lia|]. f_equal. lia. }
    destruct (Z.ltb_spec best m) as [C|C].
    - split; [exact HM|]. split; [lia|]. intros q. destruct (HPQ q) as [p|p]; [|exact p]. specialize (Hwc (HP p)). lia.
    - assert (Wc : Q -> word = Z.of_N c). { intros q. destruct (HPQ q) as [p|p]; [exact (HP p)|]. apply Ub. specialize (Hhc p). lia. }
      destruct (Z.ltb_spec next m); (split; [exact HW|]; split; [|exact Wc]); [|exact HN].
      destruct (Z.eq_dec m (mt c)) as [Q'|Q']; [|lia]. exfalso. apply E. rewrite (proj2 Lm Q'). symmetry. apply Ub. lia. }
  unfold sb_soft. rewrite (hard_decisions n k t Hk Hn Hp Ht soft HL). cbn [bind].
  destruct (hard_dec n k t g Hk Hn Hp HG par err HPar HErr (signs n) (signs_lt n)) as (w0 & E0 & R0). rewrite E0. cbn [bind].
  assert (C0 : candidate w0) by (destruct R0 as [(d & -> & Cd & _)|(-> & _)]; [right; exists d; auto|left; reflexivity]).
  destruct (metric_cand n g Hn soft HL HB w0 C0) as (b0 & Eb & HM). rewrite Eb. cbn [bind].
  replace (4 <? k)%nat with true by lia. replace (k <=? 4)%nat with false by lia.
  destruct (worst_inv n t ltac:(lia) ltac:(lia) soft HL) as (w & Ew & Iw). rewrite Ew. cbn [bind].
  assert (Lw : length w = t) by apply Iw.
  assert (Fw : Forall (fun x => 0 <= x < Z.of_nat n) w).
  { apply (proj2 (Forall_nth _ _)). intros i d Hi. destruct Iw as (_ & Iw & _). rewrite (nth_indep w d 0) by exact Hi. apply Iw. lia. }
  set (j0 := N.to_nat (pick S w)).
  assert (Hj0 : (j0 < 2 ^ t)%nat).
  { pose proof (pick_lt S w) as Q. rewrite Lw, <- pow2_of_nat in Q. unfold j0. lia. }
  (* flipping the picked positions is exclusive or with S *)
  assert (Pick : forall y, (forall b, N.testbit y b = true <-> exists i, (i < t)%nat /\ N.testbit (N.of_nat j0) (N.of_nat i) = true /\ b = N.of_nat (W w i)) -> y = S).
  { intros y Ty. apply N.bits_inj. intros b. apply eq_true_iff_eq. rewrite Ty. unfold j0. rewrite N2Nat.id. split.
    - intros (i & Hi & T & ->). rewrite pick_bit in T by lia. replace (N.of_nat (W w i)) with (Z.to_N (nth i w 0)); [exact T|]. lia.
    - intros T. destruct (worst_has n t ltac:(lia) ltac:(lia) soft HL w _ Iw (HS b T)) as (i & Hi & E). exists i. split; [exact Hi|]. split; [|lia].
      rewrite pick_bit by lia. replace (Z.to_N (nth i w 0)) with b; [exact T|]. lia. }
  assert (SL : (S < 2 ^ N.of_nat n)%N).
  { apply tb_lt. intros q Hq. destruct (N.testbit S q) eqn:T; [|reflexivity]. destruct (HS q T) as (Q & _). lia. }
  edestruct (for_up_inv (fun j s => J (j0 < j)%nat s)) as ([[word best] next] & E1 & HW & HN & HP).
  4: { rewrite E1. cbn [bind]. specialize (HP Hj0). subst word.
       destruct HW as [(Q & _)|(d & Q & Cd & ->)]; [lia|]. assert (d = c) by lia. subst d.
       destruct (Z.eqb_spec (mt c) next); [lia|]. reflexivity. }
  - pose proof (pow2_pos t). lia.
  - intros j s Hj Ws. cbv beta. destruct (flips_bits w j Lw Fw) as (y & Ey & By & Ty). rewrite Ey. cbn [bind]. rewrite Z_lxor_N.
    assert (Bx : (N.lxor (signs n) y < 2 ^ N.of_nat n)%N) by (apply lxor_lt; [apply signs_lt|exact By]).
    destruct (hard_dec n k t g Hk Hn Hp HG par err HPar HErr _ Bx) as (h & Eh & Rh). rewrite Eh. cbn [bind].
    apply (ST (j0 < j)%nat); [|exact Ws|].
    + destruct Rh as [(c' & -> & HC' & _)|(-> & _)]; [right; exists c'; auto|left; reflexivity].
    + intros Hlt. destruct (Nat.eq_dec j j0) as [->|]; [right|left; lia]. apply Pick in Ty. subst y. eapply Dec; [exact Bx|exact Hdist|exact Eh].
  - split; [exact HM|]. split; [lia|]. intros Hlt. assert (j0 = 0)%nat by lia.
    assert (S0 : S = 0%N).
    { symmetry. apply Pick. intros b. rewrite N.bits_0. split; [discriminate|]. intros (i & Hi & T & _). rewrite H in T. change (N.of_nat 0) with 0%N in T. rewrite N.bits_0 in T. discriminate. }
    subst S. rewrite N.lxor_0_r in Hdist. eapply Dec; [apply signs_lt|exact Hdist|exact E0].
Qed.
End Chase.
