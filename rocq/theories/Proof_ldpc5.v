(** LDPC decoder: the constructor. *)
From Coq Require Import ZifyBool Permutation.
From Verif Require Import Cpp Model_simd Model_ldpc Spec_ldpc Lib_list Proof_bits Proof_simd Proof_ldpc1 Proof_ldpc2 Proof_ldpc3 Proof_ldpc4.
Open Scope nat_scope.
Ltac Zify.zify_post_hook ::= idtac.

Fixpoint nsum (f : nat -> nat) (n : nat) : nat := match n with O => 0 | S n => nsum f n + f n end.
Lemma nsum_classes q l : 0 < q -> nsum (fun n => length (filter (fun x => x mod q =? n) l)) q = length l.
Proof.
  intros Hq. induction l as [|x l IH].
  - cbn [filter length]. assert (forall m, nsum (fun _ => 0) m = 0) as H by (induction m; cbn [nsum]; lia). apply H.
  - cbn [length]. rewrite <- IH. pose proof (Nat.mod_upper_bound x q ltac:(lia)) as Hx.
    assert (forall m, nsum (fun n => length (filter (fun x => x mod q =? n) (x :: l))) m =
              nsum (fun n => length (filter (fun x => x mod q =? n) l)) m + (if x mod q <? m then 1 else 0)) as H.
    { induction m as [|m IHm]; [reflexivity|]. cbn [nsum]. rewrite IHm. cbn [filter].
      destruct (Nat.eqb_spec (x mod q) m); cbn [length];
      destruct (Nat.ltb_spec (x mod q) m), (Nat.ltb_spec (x mod q) (S m)); lia. }
    rewrite H. replace (x mod q <? q) with true by lia. lia.
Qed.
Lemma nsum_ext f g n : (forall i, i < n -> f i = g i) -> nsum f n = nsum g n.
Proof. induction n as [|n IH]; intros H; cbn; [reflexivity|]. rewrite IH, H by (intros; try apply H; lia). reflexivity. Qed.
Lemma nsum_mono f a b : a <= b -> nsum f a <= nsum f b.
Proof. induction 1; cbn; lia. Qed.

Lemma segment_prefix {A} b c lo (l l' : list A) :
  firstn lo l' = firstn lo l -> b + c <= lo -> firstn c (skipn b l') = firstn c (skipn b l).
Proof.
  intros H Hle. rewrite !firstn_skipn_comm. f_equal.
  rewrite <- (Nat.min_l (b + c) lo) by lia. rewrite <- !firstn_firstn. rewrite H. reflexivity.
Qed.
Lemma firstn_upd {A} lo i (l : list A) v : lo <= i -> firstn lo (upd l i v) = firstn lo l.
Proof.
  revert i l. induction lo as [|lo IH]; intros i l H; [reflexivity|]. destruct l as [|x l]; [reflexivity|].
  destruct i as [|i]; [lia|]. cbn [upd firstn]. f_equal. apply IH. lia.
Qed.

Lemma sub_mod_eq M v : 0 < M -> v - v mod M = M * (v / M).
Proof.
  intros HM. pose proof (Nat.div_mod v M ltac:(lia)) as H. revert H. generalize (v mod M) (M * (v / M)). intros; lia.
Qed.

Section Ctor.
Variable T : table.
Variable D : nat.
Hypothesis DOK : decoder_ok T D.
Notation OK := (ok_table T D DOK).
Notation M := (t_M T).
Notation q := (t_q T).
Notation CNC := (t_cnc T).
Notation rows := (rows_of T).
Notation cl i := (cls M q i 0 rows).
Notation W := (d_W T D).

Lemma M_WD : M = W * D.
Proof. unfold d_W. pose proof (ok_MD T D DOK). pose proof (ok_D T D DOK). pose proof (Nat.div_mod M D ltac:(lia)). lia. Qed.
Lemma D_pos : 0 < D. Proof. pose proof (ok_D T D DOK). lia. Qed.
Lemma W_pos : 0 < W. Proof. pose proof M_WD. pose proof (ok_M T OK). nia. Qed.
Lemma PTY_eq : d_PTY T D = W * q.
Proof.
  unfold d_PTY. rewrite (ok_R T OK). rewrite M_WD. replace (W * D * q) with (W * q * D) by lia.
  apply Nat.div_mul. pose proof D_pos. lia.
Qed.
Lemma MSG_eq : d_MSG T D = W * length rows.
Proof.
  unfold d_MSG. rewrite (ok_K T OK). rewrite M_WD at 1. replace (W * D * length rows) with (W * length rows * D) by lia.
  apply Nat.div_mul. pose proof D_pos. lia.
Qed.
Lemma blocks_eq : t_K T / M = length rows.
Proof. rewrite (ok_K T OK). rewrite Nat.mul_comm. apply Nat.div_mul. pose proof (ok_M T OK). lia. Qed.

Definition csum (i : nat) : nat := nsum (fun n => length (cl n)) i.
Lemma csum_q : csum q = length (concat rows).
Proof.
  unfold csum. rewrite <- (nsum_classes q (concat rows)) by apply (ok_q T OK). apply nsum_ext. intros. apply length_cls.
Qed.
Lemma LOC_eq : d_LOC T D = W * csum q.
Proof.
  unfold d_LOC. rewrite (ok_total T D DOK), csum_q.
  assert (0 < t_R T) as HR by (rewrite (ok_R T OK); pose proof (ok_M T OK); pose proof (ok_q T OK); nia).
  replace (M * length (concat rows) + 2 * t_R T - 1 - (2 * t_R T - 1)) with (M * length (concat rows)) by lia.
  rewrite M_WD. pose proof D_pos. symmetry. apply (Nat.div_unique _ _ _ (D - 1)); [lia|]. lia.
Qed.
Lemma BNL_eq : d_BNL T D = W * csum q + 2 * (W * q).
Proof.
  unfold d_BNL. rewrite (ok_total T D DOK), csum_q.
  assert (0 < t_R T) as HR by (rewrite (ok_R T OK); pose proof (ok_M T OK); pose proof (ok_q T OK); nia).
  rewrite (ok_R T OK) in *. pose proof M_WD as E. pose proof (ok_D T D DOK). symmetry.
  apply (Nat.div_unique _ _ _ (D - 2)); [lia|]. rewrite E in *. lia.
Qed.

(** where the links of layer [(i, j)] start in [loc] *)
Definition base (i j : nat) : nat := W * csum i + j * length (cl i).
Lemma base_next i j : base i j + length (cl i) = base i (S j).
Proof. unfold base. lia. Qed.
Lemma base_wrap i : base i W = base (S i) 0.
Proof. unfold base, csum. cbn [nsum]. lia. Qed.
Lemma base_le i' j' i j : j' < W -> i' < i \/ (i' = i /\ j' < j) -> base i' j' + length (cl i') <= base i j.
Proof.
  intros Hj [H|[-> H]].
  - transitivity (base (S i') 0).
    + rewrite <- base_wrap. unfold base. nia.
    + unfold base. assert (csum (S i') <= csum i) by (apply nsum_mono; lia). nia.
  - unfold base. nia.
Qed.
Lemma base_LOC i j : i < q -> j < W -> base i j + length (cl i) <= d_LOC T D.
Proof.
  intros Hi Hj. rewrite LOC_eq. replace (W * csum q) with (base q 0) by (unfold base; lia). apply base_le; [exact Hj|left; exact Hi].
Qed.

(** the location of data position [u] *)
Definition locof (u : nat) : nat * nat := ((u - u mod M) / D + (u mod M) mod W, (u mod M) / W).
Definition seg (loc : list (nat * nat)) (i j : nat) : list (nat * nat) := firstn (length (cl i)) (skipn (base i j) loc).
Definition segs (Q : nat -> nat -> Prop) (loc : list (nat * nat)) : Prop :=
  length loc = d_LOC T D /\
  forall i j, i < q -> j < W -> Q i j -> Permutation (seg loc i j) (map (fun v => locof (moved M j v)) (cl i)).

Lemma moved_parts j v : moved M j v mod M = (v mod M + j) mod M /\ moved M j v - moved M j v mod M = v - v mod M.
Proof.
  pose proof (ok_M T OK) as HM.
  assert (moved M j v mod M = (v mod M + j) mod M) as E.
  { unfold moved. rewrite sub_mod_eq by lia. apply (qdm M). apply Nat.mod_upper_bound; lia. }
  rewrite E. split; [reflexivity|]. unfold moved. apply Nat.add_sub.
Qed.
Lemma locof_bound u : u < t_K T -> fst (locof u) < d_MSG T D /\ snd (locof u) < D.
Proof.
  intros Hu. pose proof (ok_M T OK) as HM. pose proof W_pos as HW. pose proof D_pos as HD. pose proof M_WD as E.
  assert (u mod M < M) as Hm by (apply Nat.mod_upper_bound; lia). unfold locof. cbn [fst snd]. split.
  - rewrite MSG_eq. rewrite (ok_K T OK) in Hu. assert (u / M < length rows) as Hr by (apply Nat.div_lt_upper_bound; [lia|exact Hu]).
    rewrite sub_mod_eq by lia. rewrite E at 1. replace (W * D * (u / M)) with (W * (u / M) * D) by lia.
    rewrite Nat.div_mul by lia.
    pose proof (Nat.mod_upper_bound (u mod M) W ltac:(lia)). nia.
  - apply Nat.div_lt_upper_bound; [lia|]. lia.
Qed.
Lemma PTY_u16 : (N.of_nat (d_MSG T D) <= 65536)%N /\ ((N.of_nat D <= 65536)%N \/ length rows = 0).
Proof.
  pose proof (ok_K16 T OK) as H. rewrite (ok_K T OK) in H. pose proof M_WD as E. pose proof D_pos. pose proof W_pos. split.
  - rewrite MSG_eq. rewrite E in H. nia.
  - destruct (length rows) as [|b] eqn:Eb; [right; reflexivity|left]. rewrite E in H. nia.
Qed.

Lemma base_PTY i j : i < q -> j < W -> W * i + j < W * q.
Proof. intros. nia. Qed.

(** the initial write disable masks: link [c] is disabled when link [c + 1] uses the same word *)
Definition disabled (loc : list (nat * nat)) (i j c : nat) : bool :=
  (S c <? length (cl i)) && (fst (nth c (seg loc i j) (0, 0)) =? fst (nth (S c) (seg loc i j) (0, 0))).
Definition masks (Q : nat -> nat -> Prop) (loc : list (nat * nat)) (wd : list N) : Prop :=
  forall i j c, i < q -> j < W -> Q i j -> N.testbit (nth (W * i + j) wd 0%N) (N.of_nat c) = disabled loc i j c.
(** links are ordered by their word *)
Definition ordered (Q : nat -> nat -> Prop) (srt : list (nat * nat) -> list (nat * nat)) (loc : list (nat * nat)) : Prop :=
  forall i j, i < q -> j < W -> Q i j -> exists l, seg loc i j = srt l.

Theorem decoder_ctor srt : (forall l, Permutation (srt l) l) ->
  exists C wd, ldpc_decoder T D srt = Ok (C, wd) /\ counts T (lc_cnc C) /\
    segs (fun _ _ => True) (lc_loc C) /\ length wd = d_PTY T D /\
    masks (fun _ _ => True) (lc_loc C) wd /\ ordered (fun _ _ => True) srt (lc_loc C).
Proof.
  intros Hsrt. pose proof (ok_M T OK) as HM. pose proof (ok_q T OK) as Hq. pose proof W_pos as HW. pose proof D_pos as HD.
  unfold ldpc_decoder. destruct (collect_ok T OK (q * CNC) (le_n _)) as (pos & cnc & E & Hrep).
  rewrite E. cbn [bind]. pose proof Hrep as (Lc & Lp & Hr).
  assert (counts T cnc) as HC by (split; [exact Lc|]; intros i Hi; apply (Hr i Hi)).
  edestruct (for_up_inv (fun i (s : nat * list (nat * nat) * list N) => let '(lo, loc, wd) := s in
      lo = base i 0 /\ segs (fun i' _ => i' < i) loc /\ length wd = d_PTY T D /\
      masks (fun i' _ => i' < i) loc wd /\ ordered (fun i' _ => i' < i) srt loc))
    as ([[lo loc] wd] & E' & Hlo & Hseg & Lw & Hmk & Hord).
  4: { rewrite E'. cbn [bind]. eexists _, _. split; [reflexivity|]. cbn [lc_cnc lc_loc]. split; [exact HC|].
       split; [|split; [exact Lw|]].
       - split; [apply Hseg|]. intros i j Hi Hj _. apply Hseg; assumption.
       - split; [intros i j c Hi Hj _; apply Hmk; assumption|intros i j Hi Hj _; apply Hord; assumption]. }
  - lia.
  - cbv beta. intros i [[lo loc] wd] Hi (Hlo & Hseg & Lw & Hmk & Hord). rewrite (rd_nth _ _ 0) by lia. cbn [bind].
    destruct (shifts_ok T OK (q * CNC) pos cnc i Hrep) as (o & sh & Es & Lo & Ls & Hv); [lia|].
    rewrite Es. cbn [bind]. destruct HC as (_ & HC). rewrite (HC i) by lia. remember (cl i) as l eqn:El.
    edestruct (for_up_inv (fun j (s : nat * list (nat * nat) * list N * list (option nat)) => let '(lo, loc, wd, sh) := s in
      lo = base i j /\ segs (fun i' j' => i' < i \/ (i' = i /\ j' < j)) loc /\ length wd = d_PTY T D /\
      masks (fun i' j' => i' < i \/ (i' = i /\ j' < j)) loc wd /\ ordered (fun i' j' => i' < i \/ (i' = i /\ j' < j)) srt loc /\
      length sh = length l /\ forall c, c < length l -> nth c sh None = Some ((nth c l 0 mod M + j) mod M)))
      as ([[[lo' loc'] wd'] sh'] & Ej & Hlo' & Hseg' & Lw' & Hmk' & Hord' & Ls' & Hs').
    4: { rewrite Ej. cbn [bind]. eexists. split; [reflexivity|]. cbv beta iota. split; [rewrite Hlo'; apply base_wrap|].
         assert (forall i' j', j' < W -> i' < S i -> i' < i \/ i' = i /\ j' < W) as Hcase.
         { intros i' j' H1 H2. destruct (Nat.eq_dec i' i); [right; auto|left; lia]. }
         split; [|split; [exact Lw'|split]].
         - split; [apply Hseg'|]. intros i' j' H1 H2 H3. apply Hseg'; auto.
         - intros i' j' c H1 H2 H3. apply Hmk'; auto.
         - intros i' j' H1 H2 H3. apply Hord'; auto. }
    + lia.
    + cbv beta. intros j [[[lo1 loc1] wd1] sh1] Hj (Hlo1 & Hseg1 & Lw1 & Hmk1 & Hord1 & Ls1 & Hs1).
      replace (0 <? D) with true by lia. cbn [require bind].
      pose proof (base_LOC i j ltac:(lia) ltac:(lia)) as HbL. rewrite <- El in HbL. destruct Hseg1 as (Ll1 & Hseg1).
      edestruct (for_up_inv (fun c (s : list (nat * nat) * list (option nat)) => let '(loc2, sh2) := s in
        length loc2 = d_LOC T D /\ firstn lo1 loc2 = firstn lo1 loc1 /\
        (forall c', c' < c -> nth (lo1 + c') loc2 (0, 0) = locof (moved M j (nth c' l 0))) /\
        length sh2 = length l /\
        forall c', c' < length l -> nth c' sh2 None = Some ((nth c' l 0 mod M + (if c' <? c then S j else j)) mod M)))
        as ([loc2 sh2] & Ec & Ll2 & Hf2 & Hn2 & Ls2 & Hs2).
      4: { rewrite Ec. cbn [bind]. rewrite Hlo1 in *.
           replace (base i j + length l <=? length loc2) with true by lia. cbn [require bind].
           assert (firstn (length l) (skipn (base i j) loc2) = map (fun v => locof (moved M j v)) l) as Eseg.
           { apply (list_ext _ _ (0, 0)).
             - rewrite firstn_length, skipn_length, map_length. lia.
             - intros c Hc. rewrite firstn_length, skipn_length in Hc. rewrite nth_firstn'.
               replace (c <? length l) with true by lia. rewrite nth_skipn'. rewrite Hn2 by lia.
               rewrite (nth_map1 _ _ _ 0) by lia. reflexivity. }
           rewrite Eseg.
           set (perm := srt (map (fun v => locof (moved M j v)) l)) in *.
           set (loc3 := firstn (base i j) loc2 ++ perm ++ skipn (base i j + length l) loc2).
           assert (length perm = length l) as Lperm.
           { unfold perm. rewrite (Permutation_length (Hsrt _)), map_length. reflexivity. }
           assert (length loc3 = d_LOC T D) as Ll3.
           { unfold loc3. rewrite !app_length, firstn_length, skipn_length. lia. }
           assert (firstn (base i j) loc3 = firstn (base i j) loc1) as Hf3.
           { unfold loc3. rewrite firstn_app, firstn_firstn, Nat.min_id, firstn_length.
             replace (base i j - _) with 0 by lia. cbn [firstn]. rewrite app_nil_r. exact Hf2. }
           assert (firstn (length l) (skipn (base i j) loc3) = perm) as Hseg3.
           { unfold loc3. rewrite skipn_app, firstn_length. rewrite (skipn_all2 (firstn _ _)) by (rewrite firstn_length; lia).
             replace (base i j - _) with 0 by lia. cbn [skipn Datatypes.app]. rewrite firstn_app, Lperm, Nat.sub_diag.
             cbn [firstn]. rewrite app_nil_r, <- Lperm. apply firstn_all. }
           rewrite wr_Ok by (rewrite Lw1, PTY_eq; apply base_PTY; lia). cbn [bind].
           assert (forall i' j', j' < W -> i' < i \/ i' = i /\ j' < j -> seg loc3 i' j' = seg loc1 i' j') as Hold.
           { intros i' j' A1 A2. unfold seg. apply (segment_prefix _ _ (base i j) loc1 loc3 Hf3). apply base_le; assumption. }
           assert (seg loc3 i j = perm) as Hnew by (unfold seg; rewrite <- El; exact Hseg3).
           assert (W * i + j < d_PTY T D) as Hcell by (rewrite PTY_eq; apply base_PTY; lia).
           edestruct (for_up_inv (fun c (wd : list N) => length wd = d_PTY T D /\
             (forall y, y <> W * i + j -> nth y wd 0%N = nth y wd1 0%N) /\
             forall c', N.testbit (nth (W * i + j) wd 0%N) (N.of_nat c') = (c' <? c) && disabled loc3 i j c')) as (wd2 & Ew & Lw2 & Hy2 & Hb2).
           4: { rewrite Ew. cbn [bind]. eexists. split; [reflexivity|]. cbv beta iota.
                split; [rewrite <- base_next, <- El; reflexivity|]. split; [|split; [exact Lw2|split; [|split]]].
                - split; [exact Ll3|]. intros i' j' Hi' Hj' HQ.
                  destruct (Nat.eq_dec i' i) as [->|Hne].
                  + destruct (Nat.eq_dec j' j) as [->|Hnj].
                    * unfold seg. rewrite <- El, Hseg3. unfold perm. apply Hsrt.
                    * unfold seg. rewrite (segment_prefix _ _ (base i j) loc1 loc3 Hf3).
                      -- apply Hseg1; auto. right; lia.
                      -- apply base_le; [exact Hj'|]. right; lia.
                  + unfold seg. rewrite (segment_prefix _ _ (base i j) loc1 loc3 Hf3).
                    * apply Hseg1; auto. left; lia.
                    * apply base_le; [exact Hj'|]. left; lia.
                - intros i' j' c Hi' Hj' HQ. destruct (Nat.eq_dec (W * i' + j') (W * i + j)) as [Ecell|Hcne].
                  + assert (i' = i /\ j' = j) as [-> ->].
                    { destruct (qdm W i' j' Hj') as [X1 X2]. destruct (qdm W i j ltac:(lia)) as [X3 X4].
                      rewrite Ecell in X1, X2. split; congruence. }
                    rewrite Hb2. destruct (Nat.ltb_spec c (length l - 1)) as [|Hge]; [reflexivity|].
                    unfold disabled. rewrite <- El. replace (S c <? length l) with false by lia. reflexivity.
                  + rewrite (Hy2 _ Hcne). assert (i' < i \/ i' = i /\ j' < j) as Hlt.
                    { destruct (Nat.eq_dec i' i) as [->|]; [|lia]. destruct (Nat.eq_dec j' j) as [->|]; [contradiction|lia]. }
                    rewrite (Hmk1 i' j' c Hi' Hj' Hlt). unfold disabled. rewrite (Hold i' j' Hj' Hlt). reflexivity.
                - intros i' j' Hi' Hj' HQ. destruct (Nat.eq_dec i' i) as [->|Hne].
                  + destruct (Nat.eq_dec j' j) as [->|Hnj].
                    * rewrite Hnew. eexists. reflexivity.
                    * rewrite Hold by lia. apply Hord1; auto. right; lia.
                  + rewrite Hold by lia. apply Hord1; auto. left; lia.
                - split; [exact Ls2|]. intros c Hc. rewrite Hs2 by exact Hc. replace (c <? length l) with true by lia. reflexivity. }
           - lia.
           - cbv beta. intros c w Hc (Lwc & Hyc & Hbc). rewrite !(rd_nth _ _ (0, 0)) by lia. cbn [bind].
             assert (disabled loc3 i j c = (fst (nth (base i j + c) loc3 (0, 0)) =? fst (nth (base i j + (c + 1)) loc3 (0, 0)))) as Hdis.
             { unfold disabled. rewrite <- El. replace (S c <? length l) with true by lia. cbn [andb]. unfold seg. rewrite <- El.
               rewrite !nth_firstn'. replace (c <? length l) with true by lia. replace (S c <? length l) with true by lia.
               rewrite !nth_skipn'. rewrite <- !(Nat.add_1_r c). reflexivity. }
             destruct (_ =? _) eqn:Eqb.
             2: { eexists; split; [reflexivity|]. split; [exact Lwc|]. split; [exact Hyc|]. intros c'. rewrite Hbc.
                  destruct (Nat.eq_dec c' c) as [->|]; [rewrite Hdis, !andb_false_r; reflexivity|].
                  replace (c' <? S c) with (c' <? c) by lia. reflexivity. }
             pose proof (len_le T OK i ltac:(lia)) as Hle. rewrite <- El in Hle. unfold t_cnc in Hle.
             pose proof (ok_max32 T D DOK). replace (c <? 31) with true by lia. cbn [require bind].
             assert (W * i + j < length w) as Hwl by (rewrite Lwc, PTY_eq; apply base_PTY; lia).
             rewrite (rd_nth _ _ 0%N) by exact Hwl. cbn [bind]. rewrite wr_Ok by exact Hwl.
             eexists. split; [reflexivity|]. rewrite length_upd. split; [exact Lwc|]. split.
             + intros y Hy. rewrite nth_upd_neq by lia. apply Hyc. exact Hy.
             + intros c'. rewrite nth_upd_eq by exact Hwl. rewrite N.lor_spec, Hbc.
               destruct (Nat.eq_dec c' c) as [->|Hnc].
               * rewrite Hdis. rewrite N.shiftl_spec_high' by lia. rewrite N.sub_diag. replace (c <? S c) with true by lia.
                 apply orb_true_r.
               * replace (c' <? S c) with (c' <? c) by lia.
                 assert (N.testbit (N.shiftl 1 (N.of_nat c)) (N.of_nat c') = false) as ->; [|apply orb_false_r].
                 rewrite N.shiftl_1_l. apply N.pow2_bits_false. lia.
           - rewrite length_upd. split; [exact Lw1|]. split.
             + intros y Hy. apply nth_upd_neq. lia.
             + intros c'. rewrite nth_upd_eq by lia. rewrite N.bits_0. reflexivity. }
      * lia.
      * cbv beta. intros c [loc2 sh2] Hc (Ll2 & Hf2 & Hn2 & Ls2 & Hs2).
        rewrite (rdu_nth o _ _ (proj1 (Hv c ltac:(lia)))). cbn [bind].
        assert (nth c sh2 None = Some ((nth c l 0 mod M + j) mod M)) as Hcur.
        { rewrite Hs2 by lia. replace (c <? c) with false by lia. reflexivity. }
        rewrite (rdu_nth _ _ _ Hcur). cbn [bind].
        assert (In (nth c l 0) (cl i)) as Hin by (rewrite <- El; apply nth_In; lia).
        assert (moved M j (nth c l 0) < t_K T) as HmK.
        { rewrite (ok_K T OK). apply moved_bound; [exact HM|]. rewrite <- (ok_K T OK). apply (cl_bound T OK i). exact Hin. }
        assert ((u16 ((nth c l 0 - nth c l 0 mod M) / D + (nth c l 0 mod M + j) mod M mod W),
                 u16 ((nth c l 0 mod M + j) mod M / W)) = locof (moved M j (nth c l 0))) as Eloc.
        { pose proof (locof_bound _ HmK) as (B1 & B2). destruct (PTY_u16) as (P1 & P2).
          unfold locof in *. cbn [fst snd] in *. destruct (moved_parts j (nth c l 0)) as [Q1 Q2].
          rewrite Q2 in *. rewrite Q1 in *. rewrite !u16_small; [reflexivity| |lia].
          destruct P2 as [P2|P2]; [lia|]. rewrite (ok_K T OK), P2 in HmK. lia. }
        rewrite Eloc. rewrite wr_Ok by lia. cbn [bind]. rewrite shift_step by lia. unfold wru. rewrite wr_Ok by lia.
        cbn [bind]. eexists. split; [reflexivity|]. cbv beta iota. rewrite !length_upd. split; [exact Ll2|].
        split; [rewrite firstn_upd by lia; exact Hf2|]. split; [|split; [exact Ls2|]].
        -- intros c' Hc'. destruct (Nat.eq_dec c' c) as [->|Hne].
           ++ apply nth_upd_eq. lia.
           ++ rewrite nth_upd_neq by lia. apply Hn2. lia.
        -- intros c' Hc'. destruct (Nat.eq_dec c' c) as [->|Hne].
           ++ rewrite nth_upd_eq by lia. replace (c <? S c) with true by lia. reflexivity.
           ++ rewrite nth_upd_neq by lia. rewrite Hs2 by exact Hc'. replace (c' <? S c) with (c' <? c) by lia. reflexivity.
      * cbv beta iota. split; [exact Ll1|]. split; [reflexivity|]. split; [intros; lia|]. split; [exact Ls1|].
        intros c Hc. replace (c <? 0) with false by lia. apply Hs1. exact Hc.
    + cbv beta iota. split; [exact Hlo|]. split; [|split; [exact Lw|split; [|split]]].
      * split; [apply Hseg|]. intros i' j' H1 H2 [H3|H3]; [apply Hseg; assumption|lia].
      * intros i' j' c H1 H2 [H3|H3]; [apply Hmk; assumption|lia].
      * intros i' j' H1 H2 [H3|H3]; [apply Hord; assumption|lia].
      * split; [exact Ls|]. intros c Hc. rewrite Nat.add_0_r, Nat.mod_mod by lia. apply Hv. exact Hc.
  - cbv beta iota. split; [unfold base, csum; cbn [nsum]; lia|]. rewrite !repeat_length. split; [|split; [reflexivity|]].
    + split; [apply repeat_length|]. intros; lia.
    + split; [intros i' j' c; lia|intros i' j'; lia].
Qed.

(** every location is inside the message array *)
Lemma seg_nth loc i j k : segs (fun _ _ => True) loc -> i < q -> j < W -> k < length (cl i) ->
  In (nth (base i j + k) loc (0, 0)) (map (fun v => locof (moved M j v)) (cl i)).
Proof.
  intros (L & H) Hi Hj Hk. specialize (H i j Hi Hj I). pose proof (base_LOC i j Hi Hj) as HbL.
  apply (Permutation_in _ H). unfold seg.
  replace (nth (base i j + k) loc (0, 0)) with (nth k (firstn (length (cl i)) (skipn (base i j) loc)) (0, 0)).
  - apply nth_In. rewrite firstn_length, skipn_length. lia.
  - rewrite nth_firstn'. replace (k <? length (cl i)) with true by lia. apply nth_skipn'.
Qed.
Lemma loc_bound loc i j k : segs (fun _ _ => True) loc -> i < q -> j < W -> k < length (cl i) ->
  base i j + k < length loc /\ fst (nth (base i j + k) loc (0, 0)) < d_MSG T D /\ snd (nth (base i j + k) loc (0, 0)) < D.
Proof.
  intros S Hi Hj Hk. pose proof (seg_nth loc i j k S Hi Hj Hk) as Hin. destruct S as (L & _).
  pose proof (base_LOC i j Hi Hj) as HbL. split; [lia|]. apply in_map_iff in Hin. destruct Hin as (v & <- & Hv).
  apply locof_bound. rewrite (ok_K T OK). apply moved_bound; [apply (ok_M T OK)|]. rewrite <- (ok_K T OK).
  apply (cl_bound T OK i). exact Hv.
Qed.
End Ctor.
