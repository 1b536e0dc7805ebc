(** LDPC encoder: constructor and encoding. *)
From Coq Require Import ZifyBool ZifyNat ZifyN.
From Verif Require Import Cpp Model_simd Model_ldpc Spec_ldpc Lib_list Proof_bits Proof_ldpc1 Proof_ldpc2.
Open Scope nat_scope.
Ltac Zify.zify_post_hook ::= idtac.

Lemma moved_0 M v : 0 < M -> moved M 0 v = v.
Proof.
  intros HM. unfold moved. rewrite Nat.add_0_r, Nat.mod_mod by lia.
  pose proof (Nat.mod_le v M ltac:(lia)). lia.
Qed.
Lemma shift_step M v j : 0 < M -> ((v mod M + j) mod M + 1) mod M = (v mod M + S j) mod M.
Proof. intros HM. rewrite Nat.add_mod_idemp_l by lia. f_equal. lia. Qed.

Section Encoder.
Variable T : table.
Hypothesis OK : table_ok T.
Notation M := (t_M T).
Notation q := (t_q T).
Notation CNC := (t_cnc T).
Notation rows := (rows_of T).
Notation cl i := (cls M q i 0 rows).

Definition good (Q : nat -> nat -> nat -> Prop) (pos : list (option nat)) : Prop :=
  length pos = t_R T * CNC /\
  forall i j c, i < q -> j < M -> c < length (cl i) -> Q i j c ->
    nth (CNC * (q * j + i) + c) pos None = Some (moved M j (nth c (cl i) 0)).

Lemma good_mono (Q Q' : nat -> nat -> nat -> Prop) pos :
  (forall i j c, i < q -> j < M -> c < length (cl i) -> Q' i j c -> Q i j c) -> good Q pos -> good Q' pos.
Proof. intros H (L & G). split; [exact L|]. intros. apply G; auto. Qed.

Lemma idx_lt i j c : i < q -> j < M -> c < length (cl i) -> CNC * (q * j + i) + c < t_R T * CNC.
Proof.
  intros Hi Hj Hc. apply mulc_lt; [pose proof (len_le T OK i Hi); lia|]. rewrite (ok_R T OK). nia.
Qed.
Lemma good_wr (Q : nat -> nat -> nat -> Prop) pos i j c :
  i < q -> j < M -> c < length (cl i) -> good Q pos ->
  good (fun i' j' c' => Q i' j' c' \/ (i' = i /\ j' = j /\ c' = c))
       (upd pos (CNC * (q * j + i) + c) (Some (moved M j (nth c (cl i) 0)))).
Proof.
  intros Hi Hj Hc (L & G). split; [rewrite length_upd; exact L|].
  intros i' j' c' Hi' Hj' Hc' HQ.
  destruct (Nat.eq_dec (CNC * (q * j + i) + c) (CNC * (q * j' + i') + c')) as [E|E].
  - apply mulc_inj in E; [|pose proof (len_le T OK i Hi); lia|pose proof (len_le T OK i' Hi'); lia].
    destruct E as [E ->]. apply mulc_inj in E; [|lia|lia]. destruct E as [-> ->].
    apply nth_upd_eq. rewrite L. apply idx_lt; assumption.
  - rewrite nth_upd_neq by exact E. destruct HQ as [HQ|(-> & -> & ->)]; [apply G; assumption|lia].
Qed.

Lemma cl_bound i v : In v (cl i) -> v < t_K T.
Proof. intros H. apply cls_bound in H; [|apply (ok_M T OK)]. rewrite (ok_K T OK). lia. Qed.
Lemma moved_K j i c : c < length (cl i) -> moved M j (nth c (cl i) 0) < t_K T.
Proof.
  intros Hc. rewrite (ok_K T OK). apply moved_bound; [apply (ok_M T OK)|]. rewrite <- (ok_K T OK). apply (cl_bound i).
  apply nth_In. exact Hc.
Qed.

Definition counts (cnc : list nat) : Prop :=
  length cnc = q /\ forall i, i < q -> nth i cnc 0 = length (cl i).

Theorem encoder_ok : exists pos cnc, ldpc_encoder T = Ok (pos, cnc) /\ counts cnc /\ good (fun _ _ _ => True) pos.
Proof.
  pose proof (ok_M T OK) as HM. pose proof (ok_q T OK) as Hq.
  unfold ldpc_encoder. destruct (collect_ok T OK (t_R T * CNC)) as (pos & cnc & E & Hrep).
  { rewrite (ok_R T OK). nia. }
  rewrite E. cbn [bind]. pose proof Hrep as (Lc & Lp & Hr).
  assert (counts cnc) as HC by (split; [exact Lc|]; intros i Hi; apply (Hr i Hi)).
  assert (good (fun _ j _ => j = 0) pos) as G0.
  { split; [exact Lp|]. intros i j c Hi Hj Hc ->. rewrite moved_0 by lia. rewrite Nat.mul_0_r, Nat.add_0_l.
    apply (Hr i Hi). exact Hc. }
  edestruct (for_up_inv (fun i pos => good (fun i' j' _ => i' < i \/ j' = 0) pos)) as (pos' & E' & G').
  4: { rewrite E'. cbn [bind]. exists pos', cnc. split; [reflexivity|]. split; [exact HC|].
       eapply good_mono; [|exact G']. cbv beta. intros; left; assumption. }
  - lia.
  - cbv beta. intros i p Hi G. rewrite (rd_nth _ _ 0) by lia. cbn [bind].
    destruct (shifts_ok T OK (t_R T * CNC) p cnc i) as (o & sh & Es & Lo & Ls & Hv); [|lia|].
    { split; [exact Lc|]. split; [apply G|]. intros n Hn. split; [apply HC; assumption|]. intros c Hc.
      destruct G as (_ & G). specialize (G n 0 c Hn HM Hc (or_intror eq_refl)).
      rewrite moved_0, Nat.mul_0_r, Nat.add_0_l in G by lia. exact G. }
    rewrite Es. cbn [bind]. destruct HC as (_ & HC). rewrite (HC i) in * by lia. set (l := cl i) in *.
    edestruct (for_up_inv (fun j (s : list (option nat) * list (option nat)) => let '(sh, p) := s in length sh = length l /\
      (forall c, c < length l -> nth c sh None = Some ((nth c l 0 mod M + (j - 1)) mod M)) /\
      good (fun i' j' _ => i' < i \/ j' = 0 \/ (i' = i /\ j' < j)) p)) as ((sh' & p') & Ej & Ls' & Hsh' & Gj).
    4: { rewrite Ej. cbn [bind]. eexists. split; [reflexivity|]. eapply good_mono; [|exact Gj].
         cbv beta. intros. lia. }
    + lia.
    + cbv beta. intros j [sj pj] Hj (Lj & Hsj & Gj).
      edestruct (for_up_inv (fun c (s : list (option nat) * list (option nat)) => let '(sh, p) := s in length sh = length l /\
        (forall c', c' < length l -> nth c' sh None =
           Some ((nth c' l 0 mod M + (if c' <? c then j else j - 1)) mod M)) /\
        good (fun i' j' c' => i' < i \/ j' = 0 \/ (i' = i /\ j' < j) \/ (i' = i /\ j' = j /\ c' < c)) p))
        as ((sh' & p') & Ec & Ls' & Hsh' & Gc).
      4: { rewrite Ec. eexists. split; [reflexivity|]. cbv beta iota. split; [exact Ls'|]. split.
           - intros c Hc. rewrite Hsh' by exact Hc. replace (c <? length l) with true by lia.
             replace (S j - 1) with j by lia. reflexivity.
           - eapply good_mono; [|exact Gc]. cbv beta. intros i' j' c' H1 H2 H3 H4. destruct (Nat.eq_dec i' i) as [->|]; [fold l in H3|]; lia. }
      * lia.
      * cbv beta. intros c [sc pc] Hc (L' & Hs' & Gc).
        assert (nth c sc None = Some ((nth c l 0 mod M + (j - 1)) mod M)) as Hcur.
        { rewrite Hs' by lia. replace (c <? c) with false by lia. reflexivity. }
        rewrite (rdu_nth _ _ _ Hcur). cbn [bind]. rewrite shift_step by lia. replace (S (j - 1)) with j by lia.
        unfold wru. rewrite wr_Ok by lia. cbn [bind].
        rewrite (rdu_nth _ _ ((nth c l 0 mod M + j) mod M)) by (apply nth_upd_eq; lia). cbn [bind].
        rewrite (rdu_nth o _ _ (proj1 (Hv c ltac:(lia)))). cbn [bind].
        change (nth c l 0 - nth c l 0 mod M + (nth c l 0 mod M + j) mod M) with (moved M j (nth c l 0)).
        rewrite u16_small by (pose proof (ok_K16 T OK); pose proof (moved_K j i c ltac:(fold l; lia)) as Hmk; fold l in Hmk; lia).
        rewrite wr_Ok by (destruct Gc as (-> & _); apply idx_lt; fold l; lia).
        cbn [bind]. eexists. split; [reflexivity|]. cbv beta iota. rewrite length_upd. split; [exact L'|]. split.
        -- intros c' Hc'. destruct (Nat.eq_dec c' c) as [->|Hne].
           ++ rewrite nth_upd_eq by lia. replace (c <? S c) with true by lia. reflexivity.
           ++ rewrite nth_upd_neq by lia. rewrite Hs' by exact Hc'.
              replace (c' <? S c) with (c' <? c) by lia. reflexivity.
        -- assert (HW := good_wr _ pc i j c ltac:(lia) ltac:(lia) ltac:(fold l; lia) Gc). fold l in HW.
           eapply good_mono; [|exact HW]. cbv beta. intros. lia.
      * cbv beta iota. split; [exact Lj|]. split.
        -- intros c Hc. replace (c <? 0) with false by lia. apply Hsj. exact Hc.
        -- eapply good_mono; [|exact Gj]. cbv beta. intros. lia.
    + cbv beta iota. split; [exact Ls|]. split.
      * intros c Hc. rewrite Nat.sub_diag, Nat.add_0_r, Nat.mod_mod by lia. apply Hv. exact Hc.
      * eapply good_mono; [|exact G]. cbv beta. intros. lia.
  - cbv beta. eapply good_mono; [|exact G0]. cbv beta. intros. lia.
Qed.

(** the running product over the links of the first [p] checks *)
Open Scope Z_scope.
Definition pm (x : Z) : Prop := x = 1 \/ x = -1.
Lemma pm_mul x y : pm x -> pm y -> pm (x * y).
Proof. intros [->| ->] [->| ->]; unfold pm; lia. Qed.
Lemma pm_to_s x : pm x -> to_s 8 x = x.
Proof. intros [->| ->]; reflexivity. Qed.
Lemma pm_sgn x : pm x -> Z.sgn x = x.
Proof. intros [->| ->]; reflexivity. Qed.
Lemma pm_sq x : pm x -> x * x = 1.
Proof. intros [->| ->]; reflexivity. Qed.

Lemma sign_product_snoc v l i : sign_product v (l ++ [i]) = sign_product v l * Z.sgn (nth i v 0).
Proof.
  unfold sign_product. induction l as [|x l IH]; cbn [fold_right Datatypes.app]; [lia|]. rewrite IH. lia.
Qed.
Lemma sign_product_pm v l : (forall i, In i l -> pm (Z.sgn (nth i v 0))) -> pm (sign_product v l).
Proof.
  induction l as [|i l IH]; intros H; cbn [sign_product fold_right]; [left; reflexivity|].
  apply pm_mul; [apply H; left; reflexivity|]. apply IH. intros; apply H; right; assumption.
Qed.

Definition check_data (data : list Z) (p : nat) : Z := sign_product data (links M q (t_R T) rows p).

Lemma links_at i j : (i < q)%nat -> (j < M)%nat -> links M q (t_R T) rows (q * j + i) = map (moved M j) (cl i).
Proof.
  intros Hi Hj. rewrite (ok_R T OK). apply links_cls; [apply (ok_M T OK)|lia|lia|].
  intros row x Hr Hx. rewrite <- (ok_R T OK). apply (ok_entries T OK row); assumption.
Qed.

Lemma nth_map' {A B} (f : A -> B) l n d d' : (n < length l)%nat -> nth n (map f l) d = f (nth n l d').
Proof. intros H. rewrite (nth_indep _ d (f d')) by (rewrite map_length; exact H). apply map_nth. Qed.

(** running value after checks [0 .. p] *)
Fixpoint run (data : list Z) (p : nat) : Z := match p with O => 1 | S p => run data p * check_data data p end.

Theorem encode_ok pos cnc data parity : counts cnc -> good (fun _ _ _ => True) pos ->
  length data = t_K T -> length parity = t_R T -> Forall pm data ->
  exists parity', ldpc_encode T (pos, cnc) data parity = Ok parity' /\ length parity' = t_R T /\
    forall p, (p < t_R T)%nat -> nth p parity' 0 = run data (S p).
Proof.
  intros (Lc & HC) (Lp & G) Ld Lpar Hpm. pose proof (ok_M T OK) as HM. pose proof (ok_q T OK) as Hq.
  assert (forall p, (p < t_K T)%nat -> pm (nth p data 0)) as Hd.
  { intros p Hp. rewrite Forall_forall in Hpm. apply Hpm. apply nth_In. lia. }
  assert (forall p, (p < t_R T)%nat -> pm (check_data data p)) as Hcd.
  { intros p Hp. apply sign_product_pm. intros v Hv.
    rewrite (Nat.div_mod p q) in Hv by lia.
    assert (p / q < M)%nat by (apply Nat.div_lt_upper_bound; [lia|]; rewrite (ok_R T OK) in Hp; lia).
    rewrite links_at in Hv by (try apply Nat.mod_upper_bound; lia).
    apply in_map_iff in Hv. destruct Hv as (u & <- & Hu).
    rewrite pm_sgn; apply Hd; rewrite (ok_K T OK); (apply moved_bound; [exact HM|]);
      rewrite <- (ok_K T OK); apply (cl_bound _ _ Hu). }
  assert (forall p, (p <= t_R T)%nat -> pm (run data p)) as Hrun.
  { induction p as [|p IH]; intros Hp; cbn [run]; [left; reflexivity|]. apply pm_mul; [apply IH; lia|apply Hcd; lia]. }
  unfold ldpc_encode.
  edestruct (for_up_inv (fun j (s : Z * list Z) => fst s = run data (q * j) /\ length (snd s) = t_R T /\
      forall p, (p < q * j)%nat -> nth p (snd s) 0 = run data (S p))) as ((tmp & par) & E & Ht & Lpr & Hp).
  4: { rewrite E. cbn [bind]. exists par. split; [reflexivity|]. cbn [snd] in *. split; [exact Lpr|].
       intros p Hpp. apply Hp. rewrite (ok_R T OK) in Hpp. lia. }
  - lia.
  - cbv beta. intros j [tmp par] Hj (Ht & Lpr & Hp). cbn [fst snd] in *.
    edestruct (for_up_inv (fun i (s : Z * list Z) => fst s = run data (q * j + i) /\ length (snd s) = t_R T /\
      forall p, (p < q * j + i)%nat -> nth p (snd s) 0 = run data (S p))) as ((tmp' & par') & E & Ht' & Lpr' & Hp').
    4: { rewrite E. eexists. split; [reflexivity|]. cbn [fst snd] in *. replace (q * S j)%nat with (q * j + q)%nat by lia.
         split; [exact Ht'|]. split; [exact Lpr'|]. exact Hp'. }
    + lia.
    + cbv beta. intros i [t pr] Hi (Hti & Lpi & Hpi). cbn [fst snd] in *.
      assert (q * j + i < t_R T)%nat as Hpos by (rewrite (ok_R T OK); nia).
      rewrite (rd_nth _ _ 0%nat) by lia. cbn [bind]. rewrite (HC i) by lia.
      edestruct (for_up_inv (fun c t => t = run data (q * j + i) *
          sign_product data (firstn c (map (moved M j) (cl i))))) as (t' & E & Ht').
      4: { rewrite E. cbn [bind]. rewrite firstn_all2 in Ht' by (rewrite map_length; lia).
           rewrite <- links_at in Ht' by lia. fold (check_data data (q * j + i)) in Ht'.
           rewrite wr_Ok by lia. cbn [bind]. eexists. split; [reflexivity|]. cbn [fst snd].
           replace (q * j + S i)%nat with (S (q * j + i)) by lia. split; [exact Ht'|].
           rewrite length_upd. split; [exact Lpi|]. intros p Hlt.
           destruct (Nat.eq_dec p (q * j + i)) as [->|Hne].
           - rewrite nth_upd_eq by lia. exact Ht'.
           - rewrite nth_upd_neq by lia. apply Hpi. lia. }
      * lia.
      * cbv beta. intros c u Hc Hu. rewrite (rdu_nth _ _ (moved M j (nth c (cl i) 0%nat))) by (apply G; auto; lia).
        cbn [bind]. pose proof (moved_K j i c ltac:(lia)) as Hmk. rewrite (rd_nth _ _ 0) by lia. cbn [bind].
        eexists. split; [reflexivity|].
        rewrite (firstn_snoc _ c 0%nat) by (rewrite map_length; lia).
        rewrite (nth_map' _ _ _ _ 0%nat) by lia. rewrite sign_product_snoc.
        rewrite (pm_sgn (nth (moved M j _) data 0)) by (apply Hd; exact Hmk). rewrite Z.mul_assoc, <- Hu.
        apply pm_to_s. apply pm_mul; [|apply Hd; exact Hmk]. rewrite Hu. apply pm_mul; [apply Hrun; lia|].
        apply sign_product_pm. intros v Hv. apply (In_nth _ _ 0%nat) in Hv. destruct Hv as (k & Hk & <-).
        rewrite firstn_length, map_length in Hk. rewrite nth_firstn'. replace (k <? c)%nat with true by lia.
        rewrite (nth_map' _ _ _ _ 0%nat) by lia. pose proof (moved_K j i k ltac:(lia)). rewrite pm_sgn; apply Hd; assumption.
      * cbn [firstn sign_product fold_right]. rewrite Z.mul_1_r. exact Hti.
    + cbn [fst snd]. rewrite Nat.add_0_r. auto.
  - cbn [fst snd]. rewrite Nat.mul_0_r. split; [reflexivity|]. split; [exact Lpar|]. intros p Hp. lia.
Qed.

Theorem encoder_checks pos cnc data parity parity' : counts cnc -> good (fun _ _ _ => True) pos ->
  length data = t_K T -> length parity = t_R T -> Forall pm data ->
  ldpc_encode T (pos, cnc) data parity = Ok parity' ->
  length parity' = t_R T /\ Forall pm parity' /\ satisfies T data parity'.
Proof.
  intros HC G Ld Lp Hpm E. destruct (encode_ok pos cnc data parity HC G Ld Lp Hpm) as (par & E' & L' & Hv).
  rewrite E in E'. injection E' as <-. split; [exact L'|].
  assert (forall p, (p <= t_R T)%nat -> pm (run data p) /\ ((p < t_R T)%nat -> pm (check_data data p))) as Hrun.
  { pose proof (ok_M T OK) as HM. pose proof (ok_q T OK) as Hq.
    assert (forall p, (p < t_R T)%nat -> pm (check_data data p)) as Hcd.
    { intros p Hp. apply sign_product_pm. intros v Hvv.
      rewrite (Nat.div_mod p q) in Hvv by lia.
      assert (p / q < M)%nat by (apply Nat.div_lt_upper_bound; [lia|]; rewrite (ok_R T OK) in Hp; lia).
      rewrite links_at in Hvv by (try apply Nat.mod_upper_bound; lia).
      apply in_map_iff in Hvv. destruct Hvv as (u & <- & Hu).
      assert (moved M (p / q) u < length data)%nat as Hm.
      { rewrite Ld, (ok_K T OK). apply moved_bound; [exact HM|]. rewrite <- (ok_K T OK). apply (cl_bound _ _ Hu). }
      rewrite Forall_forall in Hpm. rewrite pm_sgn; apply Hpm, nth_In; exact Hm. }
    intros p Hp. split; [|apply Hcd].
    induction p as [|p IH]; cbn [run]; [left; reflexivity|]. apply pm_mul; [apply IH; lia|apply Hcd; lia]. }
  split.
  - apply Forall_forall. intros x Hx. apply (In_nth _ _ 0) in Hx. destruct Hx as (p & Hp & <-).
    rewrite Hv by lia. apply Hrun. lia.
  - intros p Hp. unfold check_holds. fold (check_data data p). rewrite Hv by exact Hp.
    destruct (Hrun p ltac:(lia)) as (R1 & R2). specialize (R2 Hp). rewrite pm_sgn by (apply Hrun; lia). cbn [run].
    destruct p as [|p].
    + cbn [run Nat.eqb]. pose proof (pm_sq _ R2). lia.
    + cbn [Nat.eqb]. replace (S p - 1)%nat with p by lia. rewrite Hv by lia. rewrite (pm_sgn (run data (S p))) by exact R1.
      pose proof (pm_sq _ R2) as Q2. pose proof (pm_sq _ R1) as Q1. revert Q1 Q2.
      generalize (run data (S p)) as a, (check_data data (S p)) as b. intros a b Q1 Q2.
      replace (b * (a * b) * a) with ((b * b) * (a * a)) by ring. rewrite Q1, Q2. reflexivity.
Qed.
End Encoder.
