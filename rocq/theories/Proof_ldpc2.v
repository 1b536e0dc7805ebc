(** LDPC: the constructors' table walk collects the check classes. *)
From Coq Require Import ZifyBool ZifyNat ZifyN.
From Verif Require Import Cpp Model_ldpc Spec_ldpc Lib_list Proof_bits Proof_ldpc1.
Open Scope nat_scope.
Ltac Zify.zify_post_hook ::= idtac.

Lemma mulc_inj C a b c d : c < C -> d < C -> C * a + c = C * b + d -> a = b /\ c = d.
Proof.
  intros Hc Hd H. destruct (qdm C a c Hc) as [A1 A2]. destruct (qdm C b d Hd) as [B1 B2].
  rewrite H in A1, A2. split; congruence.
Qed.
Lemma mulc_lt C a b c : c < C -> a < b -> C * a + c < b * C.
Proof. intros. nia. Qed.

Lemma skipn_add {A} n m (l : list A) : skipn n (skipn m l) = skipn (m + n) l.
Proof. rewrite skipn_skipn'. f_equal. lia. Qed.

Section Collect.
Variable T : table.
Hypothesis OK : table_ok T.
Notation M := (t_M T).
Notation q := (t_q T).
Notation CNC := (t_cnc T).
Notation rows := (rows_of T).

Lemma len_le n : n < q -> length (cls M q n 0 rows) <= CNC.
Proof. intros H. rewrite length_cls. apply (ok_links T OK n H). Qed.
Lemma CNC_255 : CNC <= 255.
Proof. pose proof (ok_max T OK). unfold t_cnc. lia. Qed.

Definition repr (done : list (list nat)) (L : nat) (pos : list (option nat)) (cnc : list nat) : Prop :=
  length cnc = q /\ length pos = L /\
  forall n, n < q -> nth n cnc 0 = length (cls M q n 0 done) /\
    forall c, c < length (cls M q n 0 done) -> nth (CNC * n + c) pos None = Some (nth c (cls M q n 0 done) 0).

Lemma cls_snoc n dn row : cls M q n 0 (dn ++ [row]) =
  cls M q n 0 dn ++ map (slot M q (length dn)) (filter (fun x => x mod q =? n) row).
Proof. rewrite cls_app. cbn [cls]. rewrite app_nil_r. reflexivity. Qed.

Lemma entry_ok L dn row rest row_ptr d pos cnc :
  q * CNC <= L -> rows = dn ++ row :: rest -> d < length row -> firstn (length row) (skipn row_ptr (t_pos T)) = row ->
  repr (dn ++ [firstn d row]) L pos cnc ->
  exists s', ldpc_entry T row_ptr (M * length dn) d (pos, cnc) = Ok s' /\
    let '(pos', cnc') := s' in repr (dn ++ [firstn (S d) row]) L pos' cnc'.
Proof.
  intros HL Hrows Hd Hrow (Lc & Lp & Hr). pose proof (ok_M T OK) as HM. pose proof (ok_q T OK) as Hq.
  set (x := nth d row 0).
  assert (x < M * q) as Hx.
  { rewrite <- (ok_R T OK). apply (ok_entries T OK row).
    - rewrite Hrows. apply in_or_app. right; left; reflexivity.
    - apply nth_In. exact Hd. }
  assert (rd (t_pos T) (row_ptr + d) = Ok x) as Erd.
  { assert (nth d (firstn (length row) (skipn row_ptr (t_pos T))) 0 = x) as E by (rewrite Hrow; reflexivity).
    assert (length (firstn (length row) (skipn row_ptr (t_pos T))) = length row) as E2 by (rewrite Hrow; reflexivity).
    rewrite firstn_length, skipn_length in E2. rewrite nth_firstn', nth_skipn' in E. replace (d <? length row) with true in E by lia.
    rewrite (rd_nth _ _ 0) by lia. f_equal. exact E. }
  unfold ldpc_entry. rewrite Erd. cbn [bind].
  replace (0 <? q) with true by lia. replace (0 <? M) with true by lia. cbn [require bind].
  set (n := x mod q). set (m := x / q).
  assert (n < q) as Hn by (apply Nat.mod_upper_bound; lia).
  assert (m < M) as Hm by (apply Nat.div_lt_upper_bound; [lia|]; rewrite Nat.mul_comm; exact Hx).
  replace (m <=? M) with true by lia. cbn [require bind].
  destruct (Hr n Hn) as (Hc & Hp). rewrite (rd_nth _ _ 0) by lia. cbn [bind]. rewrite Hc.
  set (c := length (cls M q n 0 (dn ++ [firstn d row]))) in *.
  assert (forall n', cls M q n' 0 (dn ++ [firstn (S d) row]) =
            cls M q n' 0 (dn ++ [firstn d row]) ++ (if n =? n' then [slot M q (length dn) x] else [])) as Hsn.
  { intros n'. rewrite !cls_snoc. rewrite (firstn_snoc row d 0) by lia. fold x. rewrite filter_app, map_app, app_assoc.
    f_equal. cbn [filter]. fold n. destruct (n =? n'); reflexivity. }
  assert (c < CNC) as HcC.
  { pose proof (len_le n Hn) as Hle. rewrite Hrows in Hle.
    replace (dn ++ row :: rest) with ((dn ++ [row]) ++ rest) in Hle by (rewrite <- app_assoc; reflexivity).
    rewrite cls_app, app_length in Hle. rewrite cls_snoc in Hle.
    rewrite <- (firstn_skipn (S d) row) in Hle. rewrite filter_app, map_app, app_assoc, <- cls_snoc, Hsn in Hle.
    rewrite !app_length in Hle. rewrite Nat.eqb_refl in Hle. cbn [length] in Hle. fold c in Hle. lia. }
  assert (slot M q (length dn) x < t_K T) as Hslot.
  { rewrite (ok_K T OK), Hrows, app_length. cbn [length]. unfold slot.
    pose proof (Nat.mod_upper_bound (M - x / q) M ltac:(lia)). nia. }
  unfold wru. rewrite wr_Ok by (rewrite Lp; apply Nat.lt_le_trans with (q * CNC); [apply mulc_lt; assumption|assumption]).
  cbn [bind]. rewrite wr_Ok by lia. cbn [bind]. eexists. split; [reflexivity|]. cbv beta iota.
  split; [rewrite length_upd; exact Lc|]. split; [rewrite length_upd; exact Lp|].
  intros n' Hn'. rewrite Hsn. destruct (Hr n' Hn') as (Hc' & Hp'). split.
  - rewrite app_length. destruct (Nat.eqb_spec n n') as [<-|Hne].
    + rewrite nth_upd_eq by lia. cbn [length]. rewrite u8_small by (pose proof CNC_255; lia). reflexivity.
    + rewrite nth_upd_neq by exact Hne. cbn [length]. lia.
  - intros c' Hc'l. rewrite app_length in Hc'l.
    assert (c' < CNC) as Hc'C.
    { destruct (Nat.eqb_spec n n') as [<-|Hne]; cbn [length] in Hc'l; [fold c in Hc'l; lia|].
      apply Nat.lt_le_trans with (length (cls M q n' 0 (dn ++ [firstn d row]))); [lia|].
      transitivity (length (cls M q n' 0 rows)); [|apply len_le; assumption].
      rewrite Hrows. rewrite cls_snoc, cls_app, !app_length. cbn [cls]. rewrite app_length, !map_length.
      rewrite <- (firstn_skipn d row) at 2. rewrite filter_app, app_length. rewrite Nat.add_0_l. lia. }
    destruct (Nat.eqb_spec n n') as [<-|Hne]; cbn [length] in Hc'l.
    + fold c in Hc'l. destruct (Nat.eq_dec c' c) as [->|Hcc].
      * rewrite nth_upd_eq by (rewrite Lp; apply Nat.lt_le_trans with (q * CNC); [apply mulc_lt; assumption|assumption]).
        rewrite app_nth2 by (fold c; lia). fold c. rewrite Nat.sub_diag. cbn [nth]. unfold slot in *. fold m in Hslot |- *.
        rewrite u16_small; [reflexivity|]. pose proof (ok_K16 T OK). lia.
      * rewrite nth_upd_neq by lia. rewrite app_nth1 by (fold c; lia). apply Hp. lia.
    + rewrite nth_upd_neq.
      * rewrite app_nil_r. apply Hp'. lia.
      * intros E. apply mulc_inj in E; [lia|assumption|assumption].
Qed.

Lemma row_ok L dn row rest row_ptr pos cnc :
  q * CNC <= L -> rows = dn ++ row :: rest -> firstn (length row) (skipn row_ptr (t_pos T)) = row ->
  repr dn L pos cnc ->
  exists s', for_up 0 (length row) (fun d => ldpc_entry T row_ptr (M * length dn) d) (pos, cnc) = Ok s' /\
    let '(pos', cnc') := s' in repr (dn ++ [row]) L pos' cnc'.
Proof.
  intros HL Hrows Hrow H.
  edestruct (for_up_inv (fun d s => let '(pos, cnc) := s in repr (dn ++ [firstn d row]) L pos cnc))
    as (s' & E & I'). 4: { exists s'. split; [exact E|]. destruct s'. rewrite firstn_all in I'. exact I'. }
  - lia.
  - cbv beta. intros d [p c] Hd I. apply (entry_ok L dn row rest); auto. lia.
  - cbn [firstn]. unfold repr in *. destruct H as (H1 & H2 & H3). split; [exact H1|]. split; [exact H2|].
    intros n Hn. rewrite cls_snoc. cbn [filter map]. rewrite app_nil_r. apply H3. exact Hn.
Qed.

Lemma length_cut_rows c d pos : length (cut_rows c d pos) = c.
Proof. revert pos. induction c as [|c IH]; intros pos; cbn; [reflexivity|]. rewrite IH. reflexivity. Qed.

Lemma group_ok L dn count d rest row_ptr pos cnc :
  q * CNC <= L -> rows = dn ++ cut_rows count d (skipn row_ptr (t_pos T)) ++ rest ->
  count * d <= length (skipn row_ptr (t_pos T)) -> repr dn L pos cnc ->
  exists s', for_up 0 count (fun r s => let '(bit_pos, row_ptr, pos, cnc) := s in
             '(pos, cnc) <- for_up 0 d (fun d => ldpc_entry T row_ptr bit_pos d) (pos, cnc) ;;
             Ok (bit_pos + M, row_ptr + d, pos, cnc)) (M * length dn, row_ptr, pos, cnc) = Ok s' /\
    let '(bit_pos, rp', pos', cnc') := s' in
      bit_pos = M * length (dn ++ cut_rows count d (skipn row_ptr (t_pos T))) /\ rp' = row_ptr + count * d /\
      repr (dn ++ cut_rows count d (skipn row_ptr (t_pos T))) L pos' cnc'.
Proof.
  match goal with |- _ -> _ -> _ -> _ -> exists s', for_up 0 ?n ?f ?s = _ /\ _ => unfold for_up at 1; rewrite Nat.sub_0_r;
    change (loop count 0 f s) with (loop count (fst (0, 0)) f s) end.
  generalize (0, 0) as i0. intros i0 HL. revert dn i0 row_ptr pos cnc.
  induction count as [|count IH]; intros dn i0 row_ptr pos cnc Hrows Hlen H.
  - cbn [loop cut_rows]. eexists. split; [reflexivity|]. cbv beta iota. rewrite app_nil_r.
    split; [reflexivity|]. split; [lia|]. exact H.
  - cbn [loop]. cbn [cut_rows] in Hrows |- *. set (row := firstn d (skipn row_ptr (t_pos T))) in *.
    cbn [Nat.mul] in Hlen.
    assert (length row = d) as Lrow by (unfold row; rewrite firstn_length; lia).
    destruct (row_ok L dn row (cut_rows count d (skipn d (skipn row_ptr (t_pos T))) ++ rest) row_ptr pos cnc)
      as ((pos' & cnc') & E & H'); auto.
    { rewrite Lrow. reflexivity. }
    rewrite Lrow in E. rewrite E. cbn [bind].
    rewrite skipn_add in Hrows |- *.
    destruct (IH (dn ++ [row]) (S (fst i0), 0) (row_ptr + d) pos' cnc') as (s' & E' & Hs').
    + rewrite <- app_assoc. cbn [Datatypes.app]. rewrite Hrows. cbn [Datatypes.app]. reflexivity.
    + rewrite <- skipn_add. rewrite skipn_length. lia.
    + exact H'.
    + replace (M * length dn + M) with (M * length (dn ++ [row])) by (rewrite app_length; cbn [length]; lia).
      exists s'. split; [exact E'|]. destruct s' as [[[b r'] p'] c'].
      rewrite <- app_assoc in Hs'. cbn [Datatypes.app] in Hs'. destruct Hs' as (A & B & C). split; [exact A|]. split; [lia|exact C].
Qed.

Definition ldpc_walk_inv L (s : nat * nat * nat * list (option nat) * list nat) : Prop :=
  let '(g, bit_pos, rp, pos, cnc) := s in
  exists dn, rows = dn ++ table_rows (skipn g (t_len T)) (skipn g (t_deg T)) (skipn rp (t_pos T)) /\
    complete (skipn g (t_len T)) (skipn g (t_deg T)) (skipn rp (t_pos T)) = true /\
    bit_pos = M * length dn /\ repr dn L pos cnc.

Lemma skipn_cons_nth {A} (l : list A) n x t d : skipn n l = x :: t -> n < length l /\ nth n l d = x /\ skipn (S n) l = t.
Proof.
  intros H. assert (n < length l) as Hl.
  { assert (length (skipn n l) = S (length t)) as E by (rewrite H; reflexivity). rewrite skipn_length in E. lia. }
  split; [exact Hl|]. split.
  - rewrite <- (Nat.add_0_r n) at 1. rewrite <- nth_skipn', H. reflexivity.
  - replace (S n) with (n + 1) by lia. rewrite <- skipn_add, H. reflexivity.
Qed.

Theorem collect_ok L : q * CNC <= L ->
  exists pos cnc, ldpc_collect T (uninit nat L) = Ok (pos, cnc) /\ repr rows L pos cnc.
Proof.
  intros HL. unfold ldpc_collect.
  match goal with |- exists _ _, bind (while_ _ ?c ?b ?s0) _ = _ /\ _ =>
    edestruct (while_inv (ldpc_walk_inv L)
      (fun s => let '(g, _, _, _, _) := s in length (t_len T) - g) c b) with (s := s0) (fuel := length (t_len T) + 1)
      as (s' & E & I' & Hc) end.
  4: { rewrite E. cbn [bind]. destruct s' as [[[[g b] rp] pos] cnc]. exists pos, cnc. split; [reflexivity|].
       destruct I' as (dn & Hrows & Hcomp & _ & Hrep). rewrite Hrows.
       destruct (skipn g (t_len T)) as [|l len'] eqn:El; [discriminate Hcomp|].
       destruct (skipn_cons_nth _ _ _ _ 0 El) as (Hg & Hnth & _).
       cbv beta iota in Hc. rewrite (rd_nth _ _ 0) in Hc by lia. rewrite Hnth in Hc. cbn [bind] in Hc.
       injection Hc as Hc. apply negb_false_iff, Nat.eqb_eq in Hc. subst l. cbn [table_rows]. rewrite app_nil_r. exact Hrep. }
  - intros [[[[g b] rp] pos] cnc] (dn & Hrows & Hcomp & Hb & Hrep).
    destruct (skipn g (t_len T)) as [|l len'] eqn:El; [discriminate Hcomp|].
    destruct (skipn_cons_nth _ _ _ _ 0 El) as (Hg & Hnth & Hskip).
    rewrite (rd_nth _ _ 0) by lia. rewrite Hnth. cbn [bind]. eexists. split; [reflexivity|].
    intros Hl0. destruct l as [|l]; [discriminate Hl0|].
    cbn [complete] in Hcomp. cbn [table_rows] in Hrows.
    destruct (skipn g (t_deg T)) as [|d deg'] eqn:Ed; [discriminate Hcomp|].
    destruct (skipn_cons_nth _ _ _ _ 0 Ed) as (Hgd & Hnd & Hskd).
    apply andb_true_iff in Hcomp. destruct Hcomp as [Hlen Hcomp]. apply Nat.leb_le in Hlen.
    rewrite (rd_nth _ _ 0) by lia. rewrite Hnd. cbn [bind].
    subst b. destruct (group_ok L dn (S l) d (table_rows len' deg' (skipn (S l * d) (skipn rp (t_pos T)))) rp pos cnc)
      as ([[[b' rp'] pos'] cnc'] & E & Hb' & Hrp' & Hrep'); auto.
    rewrite E. cbn [bind]. eexists. split; [reflexivity|]. split; [|lia].
    unfold ldpc_walk_inv. eexists. split; [|split; [|split; [exact Hb'|exact Hrep']]].
    + replace (g + 1) with (S g) by lia. rewrite Hskip, Hskd. subst rp'. rewrite <- skipn_add, <- app_assoc. exact Hrows.
    + replace (g + 1) with (S g) by lia. rewrite Hskip, Hskd. subst rp'. rewrite <- skipn_add. exact Hcomp.
  - exists []. cbn [skipn Datatypes.app length]. split; [reflexivity|]. split; [apply (ok_complete T OK)|]. split; [lia|].
    split; [apply repeat_length|]. split; [apply repeat_length|]. intros n Hn. cbn [cls length].
    split; [apply nth_repeat|]. intros c Hc. lia.
  - lia.
Qed.

Lemma shifts_ok L pos cnc i : repr rows L pos cnc -> i < q ->
  exists offset shift, ldpc_shifts T pos i (nth i cnc 0) = Ok (offset, shift) /\
    let l := cls M q i 0 rows in
    length offset = length l /\ length shift = length l /\
    forall c, c < length l -> nth c offset None = Some (nth c l 0 - nth c l 0 mod M) /\
                              nth c shift None = Some (nth c l 0 mod M).
Proof.
  intros (Lc & Lp & H) Hi. destruct (H i Hi) as (Hc & Hp). rewrite Hc.
  set (l := cls M q i 0 rows) in *. unfold ldpc_shifts.
  edestruct (for_up_inv (fun k s => let '(o, sh) := s in length o = length l /\ length sh = length l /\
      forall c, c < k -> nth c o None = Some (nth c l 0 - nth c l 0 mod M) /\ nth c sh None = Some (nth c l 0 mod M)))
    as ((o & sh) & E & I'). 4: { exists o, sh. split; [exact E|]. exact I'. }
  - lia.
  - intros c [o sh] Hcl (Lo & Ls & Hv). rewrite (rdu_nth _ _ (nth c l 0)) by (apply Hp; lia). cbn [bind].
    replace (0 <? M) with true by (pose proof (ok_M T OK); lia). cbn [require bind].
    unfold wru. rewrite wr_Ok by lia. cbn [bind]. rewrite (rdu_nth _ _ (nth c l 0 mod M)) by (apply nth_upd_eq; lia).
    cbn [bind]. rewrite wr_Ok by lia. cbn [bind]. eexists. split; [reflexivity|]. cbv beta iota.
    rewrite !length_upd. split; [exact Lo|]. split; [exact Ls|]. intros c' Hc'.
    destruct (Nat.eq_dec c' c) as [->|Hne].
    + rewrite !nth_upd_eq by lia. auto.
    + rewrite !nth_upd_neq by lia. apply Hv. lia.
  - cbv beta iota. unfold uninit; rewrite !repeat_length. split; [reflexivity|]. split; [reflexivity|]. intros c Hc'. lia.
Qed.
End Collect.
