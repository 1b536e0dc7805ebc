(** Two runs of the ordered statistics decoders on soft values of the same magnitudes: the same matrix and the same order of the positions. *)
From Coq Require Import ZifyBool ZifyNat Permutation Sorted.
From Verif Require Import Cpp Lib_list Lib_sim Model_bits Spec_bits Proof_bits Model_sort Spec_sort Prop_sort Model_osd Spec_osd
  Proof_osd1 Proof_osd2 Proof_osd3 Proof_osd4 Proof_osd5 Proof_osd6.
Ltac Zify.zify_post_hook ::= idtac.
Local Open Scope nat_scope.

Lemma rel_for_up {A B} (R : A -> B -> Prop) lo hi f g a b : R a b -> (forall k a b, lo <= k < hi -> R a b -> rel R (f k a) (g k b)) -> rel R (for_up lo hi f a) (for_up lo hi g b).
Proof.
  unfold for_up. intros H F. remember (hi - lo) as n eqn:En. revert lo En a b H F. induction n as [|n IH]; intros lo En a b H F; cbn [loop]; [exact H|].
  apply (rel_bind R); [apply F; [lia|exact H]|]. intros a' b' H'. apply (IH (S lo)); [lia|exact H'|]. intros k x y Hk. apply F. lia.
Qed.
Lemma rel_for_down {A B} (R : A -> B -> Prop) lo hi f g a b : R a b -> (forall k a b, lo <= k < hi -> R a b -> rel R (f k a) (g k b)) -> rel R (for_down hi lo f a) (for_down hi lo g b).
Proof.
  intros H F. unfold for_down.
  assert (forall n i a b, i + n = hi - lo -> R a b -> rel R (loop n i (fun k => f (hi - 1 - k)) a) (loop n i (fun k => g (hi - 1 - k)) b)) as G.
  { induction n as [|n IH]; intros i x y Hi Hxy; cbn [loop]; [exact Hxy|]. apply (rel_bind R); [apply F; [lia|exact Hxy]|]. intros. apply IH; [lia|assumption]. }
  apply G; [lia|exact H].
Qed.
Definition both {A B} (R : A -> B -> Prop) (x : A + A) (y : B + B) : Prop :=
  match x, y with inl a, inl b => R a b | inr a, inr b => R a b | _, _ => False end.
Lemma rel_for_ret {A B} (R : A -> B -> Prop) lo hi (f : nat -> A -> res (A + A)) (g : nat -> B -> res (B + B)) a b : R a b ->
  (forall k a b, lo <= k < hi -> R a b -> rel (both R) (f k a) (g k b)) -> rel (both R) (for_ret lo hi f a) (for_ret lo hi g b).
Proof.
  unfold for_ret. intros H F. remember (hi - lo) as n eqn:En. revert lo En a b H F. induction n as [|n IH]; intros lo En a b H F; cbn [loop_ret]; [exact H|].
  apply (rel_bind (both R)); [apply F; [lia|exact H]|]. intros [a'|a'] [b'|b'] H'; cbn in H'; try contradiction; [|exact H'].
  apply (IH (S lo)); [lia|exact H'|]. intros k x y Hk. apply F. lia.
Qed.
Lemma rel_broken {A B} (R : A -> B -> Prop) x y : both R x y -> R (broken x) (broken y).
Proof. destruct x, y; cbn; tauto. Qed.

(** arrays that agree at the places [S] *)
Definition same_at {A} (S : nat -> Prop) (n : nat) (d : A) (a b : list A) : Prop := length a = n /\ length b = n /\ forall i, S i -> nth i a d = nth i b d.
Section SameAt.
Context {A : Type} (P : nat -> Prop) (n : nat) (d : A).
Hypothesis HP : forall i, P i -> i < n.
Lemma same_rd a b i : same_at P n d a b -> P i -> rel eq (rd a i) (rd b i).
Proof. intros (La & Lb & H) Hi. pose proof (HP i Hi). rewrite (rd_nth a i d), (rd_nth b i d) by lia. cbn. apply H. exact Hi. Qed.
Lemma same_wr a b i v : same_at P n d a b -> P i -> rel (same_at P n d) (wr a i v) (wr b i v).
Proof.
  intros (La & Lb & H) Hi. pose proof (HP i Hi). rewrite !wr_Ok by lia. cbn [rel]. split; [rewrite length_upd; exact La|]. split; [rewrite length_upd; exact Lb|].
  intros k Hk. rewrite !nth_upd. rewrite La, Lb. destruct ((i =? k) && (i <? n)); [reflexivity|]. apply H. exact Hk.
Qed.
Lemma same_swap a b i j : same_at P n d a b -> P i -> P j -> rel (same_at P n d) (osd_swap a i j) (osd_swap b i j).
Proof.
  intros H Hi Hj. unfold osd_swap. apply (rel_bind eq); [apply same_rd; assumption|]. intros x ? <-. apply (rel_bind eq); [apply same_rd; assumption|]. intros y ? <-.
  apply (rel_bind (same_at P n d)); [apply same_wr; assumption|]. intros a' b' H'. apply same_wr; assumption.
Qed.
End SameAt.

Section Echelon.
Variables W N K : nat.
Hypothesis HW : N <= W.
Hypothesis HK : 1 <= K <= N.
Definition cell (x : nat) : Prop := exists j i, j < K /\ i < N /\ x = W * j + i.
Lemma cell_lt x : cell x -> x < W * K.
Proof. intros (j & i & Hj & Hi & ->). apply (index_lt W N K HW); lia. Qed.
Lemma cell_of j i : j < K -> i < N -> cell (W * j + i).
Proof. intros. exists j, i. auto. Qed.
Lemma small i : i < N -> i < W.
Proof. lia. Qed.
Definition sameG : list Z -> list Z -> Prop := same_at cell (W * K) 0%Z.
Definition sameP : list nat -> list nat -> Prop := same_at (fun i => i < N) W 0.
Definition sameGP (s t : list Z * list nat) : Prop := sameG (fst s) (fst t) /\ sameP (snd s) (snd t).
Ltac cellt := apply cell_of; lia.
Lemma sameG_rd a b j i : sameG a b -> j < K -> i < N -> rel eq (rd a (W * j + i)) (rd b (W * j + i)).
Proof. intros H Hj Hi. apply (same_rd cell (W * K) 0%Z cell_lt); [exact H|cellt]. Qed.
Lemma sameG_swaprow j k a b : j < K -> k < K -> sameG a b -> rel sameG (for_up k N (fun i G => osd_swap G (W * j + i) (W * k + i)) a) (for_up k N (fun i G => osd_swap G (W * j + i) (W * k + i)) b).
Proof. intros Hj Hk H. apply rel_for_up; [exact H|]. intros i x y Hi Hxy. apply (same_swap cell (W * K) 0%Z cell_lt); [exact Hxy|cellt|cellt]. Qed.
Lemma sameG_addrow k j a b : j < K -> k < K -> sameG a b -> rel sameG (osd_addrow W N k j a) (osd_addrow W N k j b).
Proof.
  intros Hj Hk H. unfold osd_addrow. apply rel_for_up; [exact H|]. intros i x y Hi Hxy.
  apply (rel_bind eq); [apply sameG_rd; (assumption || lia)|]. intros u ? <-. apply (rel_bind eq); [apply sameG_rd; (assumption || lia)|]. intros v ? <-.
  apply (same_wr cell (W * K) 0%Z cell_lt); [exact Hxy|cellt].
Qed.
Lemma sameG_pivot k a b : k < K -> sameG a b -> rel sameG (osd_pivot W N K k a) (osd_pivot W N K k b).
Proof.
  intros Hk H. unfold osd_pivot. apply (rel_bind (both sameG)).
  - apply rel_for_ret; [exact H|]. intros j x y Hj Hxy. apply (rel_bind eq); [apply sameG_rd; (assumption || lia)|]. intros g ? <-. destruct (tob g); [|exact Hxy].
    apply (rel_bind sameG); [|intros u v Huv; exact Huv]. destruct (negb (j =? k)); [apply sameG_swaprow; (assumption || lia)|exact Hxy].
  - intros x y Hxy. exact (rel_broken _ _ _ Hxy).
Qed.
Lemma sameG_column k s t : k < K -> sameGP s t -> rel sameGP (osd_column W N K k s) (osd_column W N K k t).
Proof.
  intros Hk H. unfold osd_column. apply (rel_bind (both sameGP)).
  - apply rel_for_ret; [exact H|]. intros j (G & p) (G' & p') Hj (HG & Hp). cbn [fst snd] in HG, Hp.
    apply (rel_bind eq); [apply sameG_rd; (assumption || lia)|]. intros g ? <-. destruct (tob g); [split; assumption|].
    apply (rel_bind (both sameGP)); [|intros x y Hxy; apply rel_broken in Hxy; exact Hxy].
    apply rel_for_ret; [split; assumption|]. intros h (G1 & p1) (G2 & p2) Hh (HG1 & Hp1). cbn [fst snd] in HG1, Hp1.
    apply (rel_bind eq); [apply sameG_rd; (assumption || lia)|]. intros g2 ? <-. destruct (tob g2); [|split; assumption].
    apply (rel_bind sameP); [apply (same_swap (fun i => i < N) W 0 small); [exact Hp1|cbv beta; lia|cbv beta; lia]|]. intros q q' Hq.
    apply (rel_bind sameG).
    { apply rel_for_up; [exact HG1|]. intros i x y Hi Hxy. apply (same_swap cell (W * K) 0%Z cell_lt); [exact Hxy|cellt|cellt]. }
    intros G3 G4 H34. apply (rel_bind sameG); [|intros G5 G6 H56; split; assumption].
    destruct (negb (h =? k)); [apply sameG_swaprow; (assumption || lia)|exact H34].
  - intros x y Hxy. exact (rel_broken _ _ _ Hxy).
Qed.
Lemma sameG_row_echelon s t : sameGP s t -> rel sameGP (osd_row_echelon W N K s) (osd_row_echelon W N K t).
Proof.
  intros H. unfold osd_row_echelon. apply rel_for_up; [exact H|]. intros k (G & p) (G' & p') Hk (HG & Hp). cbn [fst snd] in HG, Hp.
  apply (rel_bind sameG); [apply sameG_pivot; (assumption || lia)|]. intros G1 G2 H12.
  apply (rel_bind sameGP); [apply sameG_column; [lia|split; assumption]|]. intros (G3 & p3) (G4 & p4) (H34 & Hp34). cbn [fst snd] in H34, Hp34.
  apply (rel_bind eq); [apply sameG_rd; (assumption || lia)|]. intros g ? <-. apply (rel_bind eq); [apply rel_eq|]. intros _ _ _.
  apply (rel_bind sameG); [|intros; split; assumption].
  apply rel_for_up; [exact H34|]. intros j x y Hj Hxy. apply (rel_bind eq); [apply sameG_rd; (assumption || lia)|]. intros g2 ? <-.
  destruct (tob g2); [apply sameG_addrow; (assumption || lia)|exact Hxy].
Qed.
Lemma sameG_systematic a b : sameG a b -> rel sameG (osd_systematic W N K a) (osd_systematic W N K b).
Proof.
  intros H. unfold osd_systematic. apply rel_for_down; [exact H|]. intros k x y Hk Hxy. apply rel_for_up; [exact Hxy|]. intros j u v Hj Huv.
  apply (rel_bind eq); [apply sameG_rd; (assumption || lia)|]. intros g2 ? <-. destruct (tob g2); [apply sameG_addrow; (assumption || lia)|exact Huv].
Qed.
End Echelon.

Lemma sorted_unique {A} (R : A -> A -> Prop) (l1 : list A) : (forall x y, R x y -> R y x -> False) -> forall l2, Permutation l1 l2 -> StronglySorted R l1 -> StronglySorted R l2 -> l1 = l2.
Proof.
  intros AS. induction l1 as [|x l1 IH]; intros l2 HP S1 S2.
  - apply Permutation_nil in HP. symmetry. exact HP.
  - destruct l2 as [|y l2]; [apply Permutation_sym, Permutation_nil in HP; discriminate|].
    inversion S1 as [|? ? S1' F1]; subst. inversion S2 as [|? ? S2' F2]; subst. rewrite Forall_forall in F1, F2.
    assert (x = y) as ->.
    { pose proof (Permutation_in x HP ltac:(left; reflexivity)) as [E|Hx]; [congruence|]. pose proof (Permutation_in y (Permutation_sym HP) ltac:(left; reflexivity)) as [E|Hy]; [congruence|].
      exfalso. apply (AS x y); [apply F1; exact Hy|apply F2; exact Hx]. }
    f_equal. apply IH; try assumption. eapply Permutation_cons_inv. exact HP.
Qed.
Lemma nth_sorted {A} (R : A -> A -> Prop) (l : list A) d : (forall i j, i < j < length l -> R (nth i l d) (nth j l d)) -> StronglySorted R l.
Proof.
  induction l as [|x l IH]; intros H; [constructor|]. constructor.
  - apply IH. intros i j Hij. apply (H (S i) (S j)). cbn [length]. lia.
  - apply Forall_forall. intros y Hy. apply (In_nth _ _ d) in Hy. destruct Hy as (k & Hk & <-). apply (H 0 (S k)). cbn [length]. lia.
Qed.
Lemma order_unique N soft soft2 s s2 : (forall i, i < N -> Z.abs (soft_at soft2 i) = Z.abs (soft_at soft i)) -> Permutation (seq 0 N) s -> Permutation (seq 0 N) s2 ->
  (forall i j, i < j < N -> more_reliable soft (nth i s 0) (nth j s 0)) -> (forall i j, i < j < N -> more_reliable soft2 (nth i s2 0) (nth j s2 0)) -> s = s2.
Proof.
  intros HA P1 P2 S1 S2. assert (length s = N /\ length s2 = N) as [L1 L2] by (apply Permutation_length in P1, P2; rewrite seq_length in P1, P2; lia).
  assert (forall i, i < N -> nth i s2 0 < N) as B2. { intros i Hi. assert (H : In (nth i s2 0) (seq 0 N)) by (apply (Permutation_in _ (Permutation_sym P2)), nth_In; lia). apply in_seq in H. lia. }
  apply (sorted_unique (more_reliable soft)).
  - unfold more_reliable. intros x y. lia.
  - eapply perm_trans; [apply Permutation_sym; exact P1|exact P2].
  - apply (nth_sorted _ s 0). rewrite L1. exact S1.
  - apply (nth_sorted _ s2 0). rewrite L2. intros i j Hij. specialize (S2 i j Hij). unfold more_reliable in *. rewrite !HA in S2 by (apply B2; lia). exact S2.
Qed.

Section Prepare.
Variables N K : nat.
Notation W := (osd_W N).
Variables genmat : list Z.
Hypothesis HK : 1 <= K <= N.
Hypothesis HN : (Z.of_nat N <= 32768)%Z.
Hypothesis Hgen : N * K <= length genmat.
Hypothesis Hbin : binary genmat.

(** the part of the preparation that looks at the magnitudes only *)
Definition order_of (s : list nat) (o : osd_members) (G : list Z) (perm : list nat) : Prop :=
  exists pm G0 perm1 G1, length pm = W /\ rep W N K G0 (fun j i => entry N genmat j (nth i s 0)) /\
    osd_row_echelon W N K (G0, s ++ skipn N pm) = Ok (G1, perm1) /\ perm = perm1 /\ osd_systematic W N K G1 = Ok G.
Lemma prepare_order o soft G perm softperm codeword : osd_sizes N K o -> N <= length soft ->
  osd_prepare N K o soft genmat = Ok (G, perm, softperm, codeword) ->
  exists s, Permutation (seq 0 N) s /\ (forall i j, i < j < N -> more_reliable soft (nth i s 0) (nth j s 0)) /\ order_of s o G perm.
Proof.
  intros (LG & LC & LS & LP & LT) Hsoft. pose proof (osd_W_ge N) as HW. unfold osd_prepare. cbv zeta.
  destruct (fill_from (fun i => i) (fun i perm => require (Z.of_nat i <=? 32767)%Z ;;; wr perm i i) 0 N (om_perm o) 0) as (pm & E1 & L1 & H1); [lia|lia| |].
  { intros i b Hi _ _. replace (Z.of_nat i <=? 32767)%Z with true by lia. reflexivity. }
  rewrite E1. cbn [bind].
  destruct (fill_from (fun i => Z.abs (soft_at soft i)) (fun i softperm => s <- rd soft i ;; wr softperm i (Z.abs (osd_clip s))) 0 N (om_softperm o) 0%Z) as (sp & E2 & L2 & H2); [lia|lia| |].
  { intros i b Hi _ _. rewrite (rd_nth soft i 0%Z) by lia. reflexivity. }
  rewrite E2. cbn [bind].
  change (fun a b : nat => (nth b sp 0 <? nth a sp 0)%Z) with (by_soft sp).
  assert (EP : pm = seq 0 N ++ skipn N pm).
  { rewrite <- (firstn_skipn N pm) at 1. f_equal. apply (list_ext _ _ 0); [rewrite firstn_length, seq_length; lia|]. intros i Hi. rewrite firstn_length in Hi.
    rewrite nth_firstn, seq_nth, H1 by lia. replace (i <? N) with true by lia. reflexivity. }
  destruct (C19_merge_sort nat (by_soft sp) 32 (seq 0 N) (skipn N pm) (om_tmp o) (by_soft_swo sp)) as (s & E3 & ST); try (rewrite seq_length; lia); [lia|].
  rewrite seq_length, <- EP in E3. rewrite E3. cbn [bind].
  pose proof ST as (SP & _ & _). assert (LSs : length s = N) by (apply Permutation_length in SP; rewrite seq_length in SP; lia).
  set (sg := fun i => nth i s 0).
  assert (SGL : forall i, i < N -> sg i < N). { intros x Hx. assert (H : In (sg x) (seq 0 N)) by (apply (Permutation_in _ (Permutation_sym SP)), nth_In; lia). apply in_seq in H. lia. }
  assert (SR : forall i j, i < j < N -> more_reliable soft (sg i) (sg j)).
  { apply (sorted_reliable soft sp N s); [|exact ST]. intros i Hi. rewrite H2. replace (i <? N) with true by lia. reflexivity. }
  assert (HPR : prep W N sg (s ++ skipn N pm) (fun i => i)).
  { split; [rewrite app_length, skipn_length; lia|]. intros i Hi. rewrite app_nth1 by lia. reflexivity. }
  destruct (loadG_ok N K soft genmat HK Hsoft Hgen Hbin (om_G o) _ sg LG HPR SGL) as (G0 & E4 & HG0). rewrite E4. cbn [bind].
  destruct (osd_row_echelon W N K (G0, s ++ skipn N pm)) as [[G1 perm1]| | |] eqn:E5; cbn [bind]; try discriminate.
  destruct (osd_systematic W N K G1) as [G2| | |] eqn:E6; cbn [bind]; try discriminate.
  intros E. exists s. split; [exact SP|]. split; [exact SR|]. exists pm, G0, perm1, G1. split; [lia|]. split; [exact HG0|]. split; [exact E5|].
  match type of E with bind ?m _ = _ => destruct m; cbn [bind] in E; try discriminate end.
  match type of E with bind ?m _ = _ => destruct m; cbn [bind] in E; try discriminate end.
  match type of E with bind ?m _ = _ => destruct m; cbn [bind] in E; try discriminate end.
  match type of E with bind ?m _ = _ => destruct m; cbn [bind] in E; try discriminate end.
  injection E as E7 E8 _ _. split; [symmetry; exact E8|]. rewrite <- E7. exact E6.
Qed.
Lemma prepare_same o o2 soft soft2 G perm sp cw G2 perm2 sp2 cw2 : osd_sizes N K o -> osd_sizes N K o2 -> N <= length soft -> N <= length soft2 ->
  (forall i, i < N -> Z.abs (soft_at soft2 i) = Z.abs (soft_at soft i)) ->
  osd_prepare N K o soft genmat = Ok (G, perm, sp, cw) -> osd_prepare N K o2 soft2 genmat = Ok (G2, perm2, sp2, cw2) ->
  sameG W N K G G2 /\ sameP W N perm perm2.
Proof.
  intros S1 S2 L1 L2 HA E1 E2. pose proof (osd_W_ge N) as HW.
  destruct (prepare_order o soft G perm sp cw S1 L1 E1) as (s & P1 & O1 & pm & G0 & p1 & Ga & Lpm & R1 & T1 & -> & U1).
  destruct (prepare_order o2 soft2 G2 perm2 sp2 cw2 S2 L2 E2) as (s2 & P2 & O2 & pm2 & G02 & p2 & Gb & Lpm2 & R2 & T2 & -> & U2).
  rewrite <- (order_unique N soft soft2 s s2 HA P1 P2 O1 O2) in *. assert (length s = N) as Ls by (apply Permutation_length in P1; rewrite seq_length in P1; lia).
  assert (sameGP W N K (G0, s ++ skipn N pm) (G02, s ++ skipn N pm2)) as H.
  { destruct R1 as (La & Ha), R2 as (Lb & Hb). split; cbn [fst snd].
    - split; [exact La|]. split; [exact Lb|]. intros x (j & i & Hj & Hi & ->). rewrite Ha, Hb by assumption. reflexivity.
    - split; [rewrite app_length, skipn_length; lia|]. split; [rewrite app_length, skipn_length; lia|]. intros i Hi. rewrite !app_nth1 by lia. reflexivity. }
  pose proof (sameG_row_echelon W N K HW HK _ _ H) as H'. rewrite T1, T2 in H'. destruct H' as (HG & HP). cbn [fst snd] in HG, HP.
  pose proof (sameG_systematic W N K HW HK _ _ HG) as H'. rewrite U1, U2 in H'. split; [exact H'|exact HP].
Qed.
End Prepare.

Lemma rel_search K {S T : Type} (R : S -> T -> Prop) (flip : nat -> S -> res S) (flip2 : nat -> T -> res T) (update : S -> res S) (update2 : T -> res T) :
  (forall a s t, a < K -> R s t -> rel R (flip a s) (flip2 a t)) -> (forall s t, R s t -> rel R (update s) (update2 t)) ->
  forall d start s t, R s t -> rel R (osd_search K flip update d start s) (osd_search K flip2 update2 d start t).
Proof.
  intros F U. induction d as [|d IH]; intros start s t H; cbn [osd_search]; [exact H|].
  apply rel_for_up; [exact H|]. intros a s1 t1 Ha H1. apply (rel_bind R); [apply F; [lia|exact H1]|]. intros s2 t2 H2. apply (rel_bind R); [apply U; exact H2|]. intros s3 t3 H3.
  apply (rel_bind R); [apply IH; exact H3|]. intros s4 t4 H4. apply F; [lia|exact H4].
Qed.

(** ** the search *)
Section Search.
Variables N K : nat.
Notation W := (osd_W N).
Hypothesis HK : 1 <= K <= N.
Variable x : nat -> bool.
Variables softperm softperm2 : list Z.
Hypothesis Hsp : length softperm = W.
Hypothesis Hsp2 : length softperm2 = W.
Hypothesis Hsoft : forall i, i < N -> nth i softperm2 0%Z = if x i then (- nth i softperm 0)%Z else nth i softperm 0%Z.
Hypothesis Hzero : forall i, N <= i < W -> nth i softperm 0%Z = 0%Z.
Hypothesis Hzero2 : forall i, N <= i < W -> nth i softperm2 0%Z = 0%Z.
Variables (G G2 : list Z) (M : nat -> nat -> bool).
Hypothesis HG : rep W N K G M.
Hypothesis HG2 : rep W N K G2 M.

Definition turned_bit (b b2 : Z) (i : nat) : Prop := exists u, b = Z.b2z u /\ b2 = Z.b2z (xorb u (x i)).
Definition turned (cw cw2 : list Z) : Prop := length cw = W /\ length cw2 = W /\ forall i, i < N -> turned_bit (nth i cw 0%Z) (nth i cw2 0%Z) i.

Lemma turned_metric cw cw2 : turned cw cw2 -> rel eq (osd_metric W cw softperm) (osd_metric W cw2 softperm2).
Proof.
  intros (L1 & L2 & H). unfold osd_metric. apply rel_for_up; [reflexivity|]. intros i s ? Hi <-.
  rewrite (rd_nth cw i 0%Z), (rd_nth cw2 i 0%Z), (rd_nth softperm i 0%Z), (rd_nth softperm2 i 0%Z) by lia. cbn [bind].
  assert ((s + (1 - 2 * nth i cw 0) * nth i softperm 0 = s + (1 - 2 * nth i cw2 0) * nth i softperm2 0)%Z) as ->; [|apply rel_eq].
  destruct (Nat.lt_ge_cases i N) as [C|C].
  - destruct (H i C) as (u & -> & ->). rewrite (Hsoft i C). destruct u, (x i); cbn [xorb Z.b2z]; lia.
  - rewrite Hzero, Hzero2 by lia. lia.
Qed.
Lemma turned_flip j cw cw2 : j < K -> turned cw cw2 -> rel turned (osd_flip W G j cw) (osd_flip W G2 j cw2).
Proof.
  intros Hj H. unfold osd_flip. pose proof (osd_W_ge N) as HW. apply rel_for_up; [exact H|]. intros i a b Hi (L1 & L2 & Hab).
  destruct HG as (LG & EG). destruct HG2 as (LG2 & EG2).
  assert (W * j + i < W * K) as HI by nia.
  rewrite (rd_nth a i 0%Z), (rd_nth b i 0%Z), (rd_nth G _ 0%Z), (rd_nth G2 _ 0%Z) by lia. cbn [bind]. rewrite !wr_Ok by lia. cbn [rel].
  split; [rewrite length_upd; exact L1|]. split; [rewrite length_upd; exact L2|]. intros k Hk. rewrite !nth_upd, L1, L2.
  destruct (Nat.eqb_spec i k) as [->|Hne]; cbn [andb]; [|apply Hab; exact Hk]. replace (k <? W) with true by lia.
  rewrite EG, EG2 by lia. destruct (Hab k Hk) as (u & -> & ->). exists (xorb u (M j k)). split; destruct u, (M j k), (x k); reflexivity.
Qed.
Lemma turned_copy cw cw2 cd cd2 n : n = N -> turned cw cw2 -> turned cd cd2 ->
  rel turned (for_up 0 n (fun i candidate => c <- rd cw i ;; wr candidate i c) cd) (for_up 0 n (fun i candidate => c <- rd cw2 i ;; wr candidate i c) cd2).
Proof.
  intros -> (L1 & L2 & H) Hc. pose proof (osd_W_ge N) as HW. apply rel_for_up; [exact Hc|]. intros i a b Hi (La & Lb & Hab).
  rewrite (rd_nth cw i 0%Z), (rd_nth cw2 i 0%Z) by lia. cbn [bind]. rewrite !wr_Ok by lia. cbn [rel].
  split; [rewrite length_upd; exact La|]. split; [rewrite length_upd; exact Lb|]. intros k Hk. rewrite !nth_upd, La, Lb.
  destruct (Nat.eqb_spec i k) as [->|Hne]; cbn [andb]; [|apply Hab; exact Hk]. replace (k <? W) with true by lia. apply H. exact Hk.
Qed.
Definition single_rel (s t : list Z * (Z * Z * list Z)) : Prop :=
  turned (fst s) (fst t) /\ fst (snd s) = fst (snd t) /\ turned (snd (snd s)) (snd (snd t)).
Lemma turned_update s t : single_rel s t -> rel single_rel (osd_update W N softperm s) (osd_update W N softperm2 t).
Proof.
  destruct s as (cw & (bn & cd)), t as (cw2 & (bn2 & cd2)). intros (H1 & H2 & H3). cbn [fst snd] in H1, H2, H3. subst bn2. destruct bn as (best & next).
  unfold osd_update. apply (rel_bind eq); [apply turned_metric; exact H1|]. intros met ? <-. destruct (best <? met)%Z; [|destruct (next <? met)%Z].
  - apply (rel_bind turned); [apply turned_copy; auto|]. intros a b Hab. split; [exact H1|]. split; [reflexivity|exact Hab].
  - split; [exact H1|]. split; [reflexivity|exact H3].
  - split; [exact H1|]. split; [reflexivity|exact H3].
Qed.
(** the list decoder: the entries that hold a candidate, that is the first one and those with a score of at least zero *)
Definition list_rel (L : nat) (s t : list Z * (list Z * list Z * list nat)) : Prop :=
  let '(cw, (cand, score, cperm)) := s in let '(cw2, (cand2, score2, cperm2)) := t in
  turned cw cw2 /\ score2 = score /\ cperm2 = cperm /\ length score = L /\ length cperm = L /\ length cand = W * L /\ length cand2 = W * L /\
  (forall j, j < L -> nth j cperm 0 < L) /\ (forall a b, a < L -> b < L -> nth a cperm 0 = nth b cperm 0 -> a = b) /\
  forall j, j < L -> (j = 0 \/ (0 <= nth j score 0)%Z) -> forall i, i < N -> turned_bit (nth (nth j cperm 0 * W + i) cand 0%Z) (nth (nth j cperm 0 * W + i) cand2 0%Z) i.
Lemma slot_fill (cw cand : list Z) pos L : length cw = W -> pos < L -> length cand = W * L ->
  exists cand', for_up 0 W (fun i candidate => c <- rd cw i ;; wr candidate (pos * W + i) c) cand = Ok cand' /\ length cand' = W * L /\
    (forall i, i < W -> nth (pos * W + i) cand' 0%Z = nth i cw 0%Z) /\ (forall k i, k < L -> k <> pos -> i < W -> nth (k * W + i) cand' 0%Z = nth (k * W + i) cand 0%Z).
Proof.
  intros LW Hpos LC.
  assert (IX : forall k i, k < L -> i < W -> k * W + i < W * L) by (intros k i Hk Hi; nia).
  edestruct (for_up_inv (fun n c => length c = W * L /\ (forall i, i < n -> nth (pos * W + i) c 0%Z = nth i cw 0%Z) /\ forall k i, k < L -> k <> pos -> i < W -> nth (k * W + i) c 0%Z = nth (k * W + i) cand 0%Z)) as (c' & E & L' & H1 & H2).
  4: { exists c'. split; [exact E|]. split; [exact L'|]. split; [exact H1|exact H2]. }
  - lia.
  - intros i c' Hi (L' & H1 & H2). rewrite (rd_nth cw i 0%Z) by lia. cbn [bind]. pose proof (IX pos i Hpos ltac:(lia)). rewrite wr_Ok by lia. eexists. split; [reflexivity|].
    split; [rewrite length_upd; exact L'|]. split.
    + intros k Hk. rewrite nth_upd. destruct (Nat.eq_dec k i) as [->|Hne].
      * rewrite Nat.eqb_refl. replace (pos * W + i <? length c') with true by lia. reflexivity.
      * replace (pos * W + i =? pos * W + k) with false by lia. cbn [andb]. apply H1. lia.
    + intros k m Hk Hkp Hm. rewrite nth_upd. assert (pos * W + i <> k * W + m) by (intros E; apply Hkp; nia). replace (pos * W + i =? k * W + m) with false by lia. cbn [andb]. apply H2; assumption.
  - split; [exact LC|]. split; [lia|reflexivity].
Qed.
Lemma turned_list_update L s t : 1 <= L -> list_rel L s t -> rel (list_rel L) (osdl_update W L softperm s) (osdl_update W L softperm2 t).
Proof.
  destruct s as (cw & ((cand & score) & cperm)), t as (cw2 & ((cand2 & score2) & cperm2)). intros HL HR. pose proof HR as (HT & -> & -> & LS & LP & LC & LC2 & PB & PI & HC).
  unfold osdl_update. apply (rel_bind eq); [apply turned_metric; exact HT|]. intros met ? <-. rewrite (rd_nth score (L - 1) 0%Z) by lia. cbn [bind].
  destruct (Z.leb_spec met (nth (L - 1) score 0%Z)) as [HM|HM]; [exact HR|]. rewrite (rd_nth cperm (L - 1) 0) by lia. cbn [bind].
  pose proof (PB (L - 1) ltac:(lia)) as HP. set (pos := nth (L - 1) cperm 0) in *. destruct HT as (L1 & L2 & HT).
  destruct (slot_fill cw cand pos L L1 HP LC) as (c1 & E1 & LC1 & F1 & G1). destruct (slot_fill cw2 cand2 pos L L2 HP LC2) as (c2 & E2 & LC2' & F2 & G2').
  rewrite E1, E2. cbn [bind].
  destruct (shift_ok 1 1 [0%Z] [0%Z] ltac:(lia) ltac:(cbn; lia) ltac:(cbn; lia) L met score cperm pos HL LS LP HM) as (j & s1 & p1 & s2 & p2 & EW & W1 & W2 & Hj & HJ1 & HJ2 & LS2 & LP2 & N1 & N2).
  rewrite EW. cbn [bind]. rewrite W1. cbn [bind]. rewrite W2. cbn [bind rel].
  assert (NP : forall y, y < L - 1 -> nth y cperm 0 <> pos) by (intros y Hy E; apply PI in E; lia).
  assert (KEEP : forall y, y < L - 1 -> (y = 0 \/ (0 <= nth y score 0)%Z) -> forall i, i < N -> turned_bit (nth (nth y cperm 0 * W + i) c1 0%Z) (nth (nth y cperm 0 * W + i) c2 0%Z) i).
  { intros y Hy Hs i Hi. pose proof (osd_W_ge N). rewrite G1, G2' by (try apply PB; try apply NP; lia). apply HC; [lia|exact Hs|exact Hi]. }
  split; [split; [exact L1|split; [exact L2|exact HT]]|]. split; [reflexivity|]. split; [reflexivity|]. split; [exact LS2|]. split; [exact LP2|]. split; [exact LC1|]. split; [exact LC2'|]. split; [|split].
  - intros i Hi. rewrite N2 by exact Hi. destruct (i <? j); [apply PB; exact Hi|]. destruct (i =? j); [exact HP|apply PB; lia].
  - intros a b Ha Hb. rewrite !N2 by assumption. intros E.
    destruct (Nat.ltb_spec a j), (Nat.ltb_spec b j); [apply PI; assumption| | |].
    + destruct (Nat.eqb_spec b j); [exfalso; apply (NP a); [lia|exact E]|]. apply PI in E; lia.
    + destruct (Nat.eqb_spec a j); [exfalso; apply (NP b); [lia|symmetry; exact E]|]. apply PI in E; lia.
    + destruct (Nat.eqb_spec a j), (Nat.eqb_spec b j); [lia| | |].
      * exfalso. apply (NP (b - 1)); [lia|symmetry; exact E].
      * exfalso. apply (NP (a - 1)); [lia|exact E].
      * apply PI in E; lia.
  - intros y Hy Hs i Hi. rewrite N1 in Hs by exact Hy. rewrite N2 by exact Hy. destruct (Nat.ltb_spec y j); [apply KEEP; [lia|exact Hs|exact Hi]|].
    destruct (Nat.eqb_spec y j) as [->|Hne].
    + pose proof (osd_W_ge N). rewrite F1, F2 by lia. apply HT. exact Hi.
    + apply KEEP; [lia| |exact Hi]. right. destruct Hs as [Hs|Hs]; [lia|exact Hs].
Qed.
End Search.

(** ** the two runs *)
Section Pair.
Variables N K : nat.
Notation W := (osd_W N).
Variables soft soft2 genmat : list Z.
Hypothesis HK : 1 <= K <= N.
Hypothesis HN : (Z.of_nat N <= 32768)%Z.
Hypothesis Hint8 : Forall int8 soft.
Hypothesis Hint82 : Forall int8 soft2.
Hypothesis Hsoft : N <= length soft.
Hypothesis Hsoft2 : N <= length soft2.
Hypothesis Hgen : N * K <= length genmat.
Hypothesis Hbin : binary genmat.
Hypothesis Hrank : full_rank N K (entry N genmat).
Variable c : nat -> bool.
Hypothesis Hc : in_code N K (entry N genmat) c.
Hypothesis Hturn : forall i, i < N -> soft_at soft2 i = if c i then (- soft_at soft i)%Z else soft_at soft i.
Hypothesis Hnz : forall i, i < N -> c i = true -> soft_at soft i <> 0%Z.

Lemma decided_turn i : i < N -> decided soft2 i = xorb (decided soft i) (c i).
Proof. intros Hi. pose proof (Hturn i Hi) as H. pose proof (Hnz i Hi) as H0. unfold decided, soft_at in *. destruct (c i); [specialize (H0 eq_refl)|]; lia. Qed.

Lemma prepare_pair o o2 : osd_sizes N K o -> osd_sizes N K o2 ->
  exists G perm sp cw G2 perm2 sp2 cw2 X pi, osd_prepare N K o soft genmat = Ok (G, perm, sp, cw) /\ osd_prepare N K o2 soft2 genmat = Ok (G2, perm2, sp2, cw2) /\
    prepared N K soft genmat G perm sp cw X pi /\ rep W N K G2 X /\ (length perm2 = W /\ forall i, i < N -> nth i perm2 0 = pi i) /\
    length sp2 = W /\ (forall i, i < N -> nth i sp2 0%Z = if c (pi i) then (- nth i sp 0)%Z else nth i sp 0%Z) /\ (forall i, N <= i < W -> nth i sp2 0%Z = 0%Z) /\
    turned N (fun i => c (pi i)) cw cw2.
Proof.
  intros S1 S2. pose proof (osd_W_ge N) as HW.
  destruct (prepare_ok N K soft genmat HK HN Hsoft Hgen Hbin Hrank o S1) as (G & perm & sp & cw & X & pi & E1 & P1).
  destruct (prepare_ok N K soft2 genmat HK HN Hsoft2 Hgen Hbin Hrank o2 S2) as (G2 & perm2 & sp2 & cw2 & X2 & pi2 & E2 & P2).
  destruct (prepare_same N K genmat HK HN Hgen Hbin o o2 soft soft2 G perm sp cw G2 perm2 sp2 cw2 S1 S2 Hsoft Hsoft2) as (SG & SP); [|exact E1|exact E2|].
  { intros i Hi. rewrite (Hturn i Hi). destruct (c i); lia. }
  pose proof (p_perm _ _ _ _ _ _ _ _ _ _ P1) as (Lp & Np). pose proof (p_perm _ _ _ _ _ _ _ _ _ _ P2) as (Lp2 & Np2).
  assert (PI : forall i, i < N -> pi2 i = pi i). { intros i Hi. rewrite <- Np, <- Np2 by exact Hi. symmetry. apply SP. exact Hi. }
  pose proof (p_rep _ _ _ _ _ _ _ _ _ _ P1) as (LG & NG). pose proof (p_rep _ _ _ _ _ _ _ _ _ _ P2) as (LG2 & NG2).
  assert (RG : rep W N K G2 X). { split; [exact LG2|]. intros j i Hj Hi. rewrite <- NG by assumption. symmetry. apply SG. exists j, i. auto. }
  assert (XX : forall j i, j < K -> i < N -> X2 j i = X j i).
  { intros j i Hj Hi. pose proof (proj2 RG j i Hj Hi) as H. rewrite NG2 in H by assumption. destruct (X2 j i), (X j i); cbn in H; congruence. }
  pose proof (p_soft _ _ _ _ _ _ _ _ _ _ P1) as (Ls & Ns & Zs). pose proof (p_soft _ _ _ _ _ _ _ _ _ _ P2) as (Ls2 & Ns2 & Zs2).
  pose proof (p_word _ _ _ _ _ _ _ _ _ _ P1) as (Lw & Nw). pose proof (p_word _ _ _ _ _ _ _ _ _ _ P2) as (Lw2 & Nw2).
  assert (PL : forall i, i < N -> pi i < N) by (apply (pi_lt N K soft genmat HK Hsoft Hgen _ _ _ _ _ _ P1)).
  exists G, perm, sp, cw, G2, perm2, sp2, cw2, X, pi. split; [exact E1|]. split; [exact E2|]. split; [exact P1|]. split; [exact RG|].
  split; [split; [exact Lp2|intros i Hi; rewrite Np2, PI by exact Hi; reflexivity]|]. split; [exact Ls2|].
  split; [intros i Hi; rewrite Ns2, PI, Ns by exact Hi; apply Hturn, PL; exact Hi|]. split; [exact Zs2|].
  split; [exact Lw|]. split; [exact Lw2|]. intros i Hi. eexists. split; [apply Nw; exact Hi|]. rewrite Nw2 by exact Hi. f_equal.
  rewrite (product_ext K X2 X _ (fun j => xorb (decided soft (pi j)) (c (pi j)))).
  - rewrite product_xor. f_equal. apply (in_code_pi N K soft genmat HK Hsoft Hgen _ _ _ _ _ _ P1) in Hc. destruct Hc as (m & Hm). rewrite (Hm i Hi). apply product_ext; [|reflexivity].
    intros j Hj. rewrite (Hm j) by lia. apply (product_sys N K soft genmat HK Hsoft Hgen _ _ _ _ _ _ P1). exact Hj.
  - intros j Hj. rewrite PI by lia. apply decided_turn, PL. lia.
  - intros j Hj. apply XX; assumption.
Qed.

Lemma tob_b2z'' b : tob (Z.b2z b) = b.
Proof. destruct b; reflexivity. Qed.
Lemma decode_pair O o o2 hard hard2 : osd_sizes N K o -> osd_sizes N K o2 -> length (om_candidate o) = W -> length (om_candidate o2) = W ->
  bytes hard -> N <= 8 * length hard -> bytes hard2 -> N <= 8 * length hard2 ->
  exists hard' hard2' unique, osd_decode N K O o hard soft genmat = Ok (hard', unique) /\ osd_decode N K O o2 hard2 soft2 genmat = Ok (hard2', unique) /\
    (forall i, i < N -> be_bit_of hard2' i = xorb (be_bit_of hard' i) (c i)).
Proof.
  intros S1 S2 LC LC2 HB HL HB2 HL2. pose proof (osd_W_ge N) as HW.
  destruct (prepare_pair o o2 S1 S2) as (G & perm & sp & cw & G2 & perm2 & sp2 & cw2 & X & pi & E1 & E2 & P1 & RG & (Lp2 & Np2) & Ls2 & Ns2 & Zs2 & HT).
  pose proof (p_soft _ _ _ _ _ _ _ _ _ _ P1) as (Ls & Ns & Zs). pose proof (p_perm _ _ _ _ _ _ _ _ _ _ P1) as (Lp & Np).
  pose proof (p_rep _ _ _ _ _ _ _ _ _ _ P1) as RG1. pose proof (p_bij _ _ _ _ _ _ _ _ _ _ P1) as BJ.
  pose proof HT as (Lw & Lw2 & Hw).
  unfold osd_decode. cbv zeta. rewrite E1, E2. cbn [bind].
  destruct (copy_ok N K soft genmat HK Hsoft Hgen cw (om_candidate o) Lw LC) as (cand & C1 & L1 & H1). rewrite C1. cbn [bind].
  destruct (copy_ok N K soft genmat HK Hsoft Hgen cw2 (om_candidate o2) Lw2 LC2) as (cand2 & C2 & L2 & H2). rewrite C2. cbn [bind].
  assert (HT' : turned N (fun i => c (pi i)) cand cand2). { split; [exact L1|]. split; [exact L2|]. intros i Hi. rewrite H1, H2 by exact Hi. apply Hw. exact Hi. }
  pose proof (rword_metric N K soft genmat HK HN Hint8 Hsoft Hgen _ _ _ _ _ _ P1 [] cw (rword_nil N K soft genmat _ _ _ _ _ _ P1)) as EM.
  pose proof (turned_metric N K HK (fun i => c (pi i)) sp sp2 Ls Ls2 Ns2 Zs Zs2 cw cw2 HT) as RM. rewrite EM in RM |- *. cbn [bind].
  destruct (osd_metric W cw2 sp2) as [met| | |]; cbn in RM; try contradiction. rewrite <- RM. cbn [bind].
  destruct (single_search N K soft genmat HK HN Hint8 Hsoft Hgen _ _ _ _ _ _ P1 (min O 6) (corr N K soft X pi []) cand) as (cw' & ((best, next), cand') & ES & HX).
  { apply (rword_metric N K soft genmat HK HN Hint8 Hsoft Hgen _ _ _ _ _ _ P1), (rword_nil N K soft genmat _ _ _ _ _ _ P1). }
  { exact L1. }
  { exact H1. }
  pose proof (rel_search K (single_rel N (fun i => c (pi i)))
    (fun j '(codeword, x) => codeword <- osd_flip W G j codeword ;; Ok (codeword, x)) (fun j '(codeword, x) => codeword <- osd_flip W G2 j codeword ;; Ok (codeword, x)) (osd_update W N sp) (osd_update W N sp2)) as RS.
  assert (F1 : forall (a : nat) (s t : list Z * (Z * Z * list Z)), a < K -> single_rel N (fun i => c (pi i)) s t ->
    rel (single_rel N (fun i => c (pi i))) ((fun j '(codeword, x) => codeword <- osd_flip W G j codeword ;; Ok (codeword, x)) a s) ((fun j '(codeword, x) => codeword <- osd_flip W G2 j codeword ;; Ok (codeword, x)) a t)).
  { intros a (u & v) (u2 & v2) Ha (Y1 & Y2). cbn [fst snd] in Y1, Y2. apply (rel_bind (turned N (fun i => c (pi i)))); [apply (turned_flip N K HK _ sp sp2 Ls Ls2 Ns2 Zs Zs2 G G2 X RG1 RG); assumption|]. intros w w2 Hww. split; assumption. }
  specialize (RS F1 (turned_update N K HK _ sp sp2 Ls Ls2 Ns2 Zs Zs2) (min O 6) 0 (cw, (corr N K soft X pi [], (-1)%Z, cand)) (cw2, (corr N K soft X pi [], (-1)%Z, cand2)) ltac:(split; [exact HT|split; [reflexivity|exact HT']])).
  rewrite ES in RS |- *. cbn [bind].
  destruct (osd_search K (fun j '(codeword, x) => codeword <- osd_flip W G2 j codeword ;; Ok (codeword, x)) (osd_update W N sp2) (min O 6) 0 (cw2, (corr N K soft X pi [], (-1)%Z, cand2))) as [(cw2' & ((best2 & next2) & cand2'))| | |]; cbn in RS; try contradiction.
  destruct RS as (_ & EB & (La & Lb & Hab)). cbn [fst snd] in EB, La, Lb, Hab. injection EB as <- <-. cbn [bind].
  set (w := fun p => tob (nth (pinv N pi p) cand' 0%Z)). set (w2 := fun p => tob (nth (pinv N pi p) cand2' 0%Z)).
  destruct (output_ok N K soft genmat HK Hsoft Hgen hard 0 perm pi (fun i => rd cand' i) w BJ ltac:(lia) Np) as (hard' & EO & _ & _ & HO); [ |exact HB|lia|].
  { intros i Hi. exists (nth i cand' 0%Z). rewrite (rd_nth cand' i 0%Z) by lia. split; [reflexivity|]. unfold w. rewrite (pinv_pi N K soft genmat HK Hsoft Hgen _ _ _ _ _ _ P1) by exact Hi. reflexivity. }
  destruct (output_ok N K soft genmat HK Hsoft Hgen hard2 0 perm2 pi (fun i => rd cand2' i) w2 BJ ltac:(lia) Np2) as (hard2' & EO2 & _ & _ & HO2); [ |exact HB2|lia|].
  { intros i Hi. exists (nth i cand2' 0%Z). rewrite (rd_nth cand2' i 0%Z) by lia. split; [reflexivity|]. unfold w2. rewrite (pinv_pi N K soft genmat HK Hsoft Hgen _ _ _ _ _ _ P1) by exact Hi. reflexivity. }
  match type of EO with ?l = _ => match goal with |- context [bind (for_up 0 N ?f hard) ?g] => change (for_up 0 N f hard) with l end end. rewrite EO. cbn [bind].
  match type of EO2 with ?l = _ => match goal with |- context [bind (for_up 0 N ?f hard2) ?g] => change (for_up 0 N f hard2) with l end end. rewrite EO2. cbn [bind].
  exists hard', hard2', (negb (best =? next)%Z). split; [reflexivity|]. split; [reflexivity|]. intros p Hp. rewrite HO, HO2. replace (p <? 0 + N) with true by lia. cbn [Nat.leb andb]. rewrite Nat.sub_0_r.
  unfold w, w2. destruct (pi_onto N K soft genmat HK Hsoft Hgen _ _ _ _ _ _ P1 p Hp) as (i & Hi & <-). rewrite (pinv_pi N K soft genmat HK Hsoft Hgen _ _ _ _ _ _ P1) by exact Hi.
  destruct (Hab i Hi) as (u & -> & ->). rewrite !tob_b2z''. reflexivity.
Qed.

(** the loop that writes the ranks and the words of the list *)
Lemma emit_ok G perm0 sp cw X pi perm L cand' sc' cp' rank hard : prepared N K soft genmat G perm0 sp cw X pi -> length perm = W -> (forall i, i < N -> nth i perm 0 = pi i) ->
  length cand' = W * L -> length sc' = L -> length cp' = L -> (forall j, j < L -> nth j cp' 0 < L) -> L <= length rank -> bytes hard -> L * ((N + 7) / 8) <= length hard ->
  exists r rk h, for_up 0 L (fun j '(r, rank, hard) =>
    r <- (if 0 <? j then (x <- rd sc' (j - 1) ;; y <- rd sc' j ;; Ok (if negb (x =? y)%Z then (r + 1)%Z else r)) else Ok r) ;;
    rank <- wr rank j r ;;
    c <- rd cp' j ;;
    hard <- for_up 0 N (fun i hard =>
      p <- rd perm i ;; x <- rd cand' (c * W + i) ;;
      set_be_bit hard (8 * (Z.of_nat j * ((Z.of_nat N + 7) / 8)) + Z.of_nat p)%Z (tob x)) hard ;;
    Ok (r, rank, hard)) (0%Z, rank, hard) = Ok (r, rk, h) /\
    length rk = length rank /\ (forall x, L <= x -> nth x rk 0%Z = nth x rank 0%Z) /\ (1 <= L -> nth 0 rk 0%Z = 0%Z) /\
    (forall x, S x < L -> nth (S x) rk 0%Z = (nth x rk 0 + if nth x sc' 0 =? nth (S x) sc' 0 then 0 else 1)%Z) /\
    (forall x i, x < L -> i < N -> be_bit_of h (8 * (x * ((N + 7) / 8)) + pi i) = tob (nth (nth x cp' 0 * W + i) cand' 0%Z)).
Proof.
  intros HP LP NP LC' LS' LP' PB LRk HB HLh. pose proof (osd_W_ge N) as HW.
  set (b8 := (N + 7) / 8) in *.
  assert (NB8 : N <= 8 * b8). { unfold b8. pose proof (Nat.div_mod (N + 7) 8). pose proof (Nat.mod_upper_bound (N + 7) 8). lia. }
  assert (ZB8 : ((Z.of_nat N + 7) / 8 = Z.of_nat b8)%Z). { unfold b8. rewrite Nat2Z.inj_div. f_equal. lia. }
  rewrite ZB8.
  set (cl := fun j i => tob (nth (nth j cp' 0 * W + i) cand' 0%Z)).
  edestruct (for_up_inv (fun j '(r, rk, h) => length rk = length rank /\ bytes h /\ length h = length hard /\ (1 <= j -> r = nth (j - 1) rk 0%Z) /\ (j = 0 -> r = 0%Z) /\
      (forall x, j <= x -> nth x rk 0%Z = nth x rank 0%Z) /\ (1 <= j -> nth 0 rk 0%Z = 0%Z) /\
      (forall x, S x < j -> nth (S x) rk 0%Z = (nth x rk 0 + if nth x sc' 0 =? nth (S x) sc' 0 then 0 else 1)%Z) /\
      (forall x i, x < j -> i < N -> be_bit_of h (8 * (x * b8) + pi i) = cl x i)))
    as (((r & rk) & h) & E5 & LRK & BH & LH & _ & _ & RK0 & RK1 & RK2 & HW1).
  4: { exists r, rk, h. split; [exact E5|]. split; [exact LRK|]. split; [exact RK0|]. split; [exact RK1|]. split; [exact RK2|]. exact HW1. }
  - lia.
  - intros j ((r & rk) & h) Hj (LRK & BH & LH & R1 & R0 & RK0 & RK1 & RK2 & HW1). cbv beta iota.
    assert (exists r', (if 0 <? j then (x <- rd sc' (j - 1) ;; y <- rd sc' j ;; Ok (if negb (x =? y)%Z then (r + 1)%Z else r)) else Ok r) = Ok r' /\ (j = 0 -> r' = 0%Z) /\
       (1 <= j -> r' = (nth (j - 1) rk 0 + if nth (j - 1) sc' 0 =? nth j sc' 0 then 0 else 1)%Z)) as (r' & ER & R0' & R1').
    { destruct (Nat.ltb_spec 0 j) as [H|H].
      - rewrite (rd_nth sc' (j - 1) 0%Z), (rd_nth sc' j 0%Z) by lia. cbn [bind]. eexists. split; [reflexivity|]. split; [lia|]. intros _. rewrite <- R1 by lia. destruct (nth (j - 1) sc' 0 =? nth j sc' 0)%Z; cbn [negb]; lia.
      - eexists. split; [reflexivity|]. split; [exact R0|lia]. }
    rewrite ER. cbn [bind]. rewrite wr_Ok by lia. cbn [bind]. rewrite (rd_nth cp' j 0) by lia. cbn [bind].
    destruct (output_ok N K soft genmat HK Hsoft Hgen h (8 * (j * b8)) perm pi (fun i => rd cand' (nth j cp' 0 * W + i)) (fun p => cl j (pinv N pi p)) (p_bij _ _ _ _ _ _ _ _ _ _ HP) ltac:(lia) NP) as (h' & E' & B' & L' & H'); [ |exact BH|rewrite LH; nia|].
    { intros i Hi. pose proof (PB j ltac:(lia)) as Hp. assert (HX' : nth j cp' 0 * W + i < W * L) by (rewrite (Nat.mul_comm (nth j cp' 0)); apply (index_lt W N); lia).
      exists (nth (nth j cp' 0 * W + i) cand' 0%Z). rewrite (rd_nth cand' _ 0%Z) by lia. split; [reflexivity|]. rewrite (pinv_pi N K soft genmat HK Hsoft Hgen _ _ _ _ _ _ HP) by exact Hi. reflexivity. }
    replace (8 * (Z.of_nat j * Z.of_nat b8))%Z with (Z.of_nat (8 * (j * b8))) by lia. rewrite E'. cbn [bind]. eexists. split; [reflexivity|].
    cbv beta iota. rewrite length_upd. split; [exact LRK|]. split; [exact B'|]. split; [lia|].
    split; [intros _; replace (S j - 1) with j by lia; rewrite nth_upd, Nat.eqb_refl; replace (j <? length rk) with true by lia; reflexivity|]. split; [lia|].
    split; [|split; [|split]].
    + intros x Hx. rewrite nth_upd. replace (j =? x) with false by lia. cbn [andb]. apply RK0. lia.
    + intros _. rewrite nth_upd. destruct (Nat.eqb_spec j 0) as [Hz|Hz]; [replace (j <? length rk) with true by lia; cbn [andb]; apply R0'; exact Hz|cbn [andb]; apply RK1; lia].
    + intros x Hx. rewrite !nth_upd. replace (j =? x) with false by lia. cbn [andb]. destruct (Nat.eqb_spec j (S x)) as [Hz|Hz]; [|cbn [andb]; apply RK2; lia].
      replace (j <? length rk) with true by lia. cbn [andb]. rewrite R1' by lia. rewrite Hz. replace (S x - 1) with x by lia. reflexivity.
    + intros x i Hx Hi. pose proof (pi_lt N K soft genmat HK Hsoft Hgen _ _ _ _ _ _ HP i Hi). rewrite H'. destruct (Nat.eq_dec x j) as [->|Hne].
      * replace (8 * (j * b8) <=? 8 * (j * b8) + pi i) with true by lia. replace (8 * (j * b8) + pi i <? 8 * (j * b8) + N) with true by lia. cbn [andb].
        replace (8 * (j * b8) + pi i - 8 * (j * b8)) with (pi i) by lia. rewrite (pinv_pi N K soft genmat HK Hsoft Hgen _ _ _ _ _ _ HP) by exact Hi. reflexivity.
      * assert ((8 * (j * b8) <=? 8 * (x * b8) + pi i) = false) as -> by (apply Nat.leb_gt; nia). cbn [andb]. apply HW1; lia.
  - split; [reflexivity|]. split; [exact HB|]. split; [reflexivity|]. split; [lia|]. split; [reflexivity|]. split; [reflexivity|]. split; [lia|]. split; [lia|]. lia.
Qed.
Notation MM := (entry N genmat).
Lemma decode_list_pair O L o o2 score score2 cperm cperm2 rank rank2 hard hard2 : 1 <= L -> osd_sizes N K o -> osd_sizes N K o2 -> length (om_candidate o) = W * L -> length (om_candidate o2) = W * L ->
  length score = L -> length score2 = L -> length cperm = L -> length cperm2 = L -> L <= length rank -> L <= length rank2 ->
  bytes hard -> L * ((N + 7) / 8) <= length hard -> bytes hard2 -> L * ((N + 7) / 8) <= length hard2 ->
  let word h j := fun p => be_bit_of h (8 * (j * ((N + 7) / 8)) + p) in
  exists rank' hard' rank2' hard2' n B, osdl_decode N K O L o score cperm rank hard soft genmat = Ok (rank', hard') /\ osdl_decode N K O L o2 score2 cperm2 rank2 hard2 soft2 genmat = Ok (rank2', hard2') /\
    (forall j, j < L -> nth j rank2' 0%Z = nth j rank' 0%Z) /\
    n <= L /\ most_reliable_basis N K MM soft B /\
    (forall j, j < n -> searched N K MM soft B (min O 6) (word hard' j) /\ (0 <= correlation N soft (word hard' j))%Z) /\
    (forall i j, i < j < n -> ~ agree N (word hard' i) (word hard' j)) /\
    (forall c, searched N K MM soft B (min O 6) c -> (0 <= correlation N soft c)%Z -> (exists j, j < n /\ agree N c (word hard' j)) \/ n = L) /\
    (forall j, j = 0 \/ j < n -> forall i, i < N -> word hard2' j i = xorb (word hard' j i) (c i)).
Proof.
  intros HL S1 S2 LC LC2 LSc LSc2 LCp LCp2 LRk LRk2 HB HLh HB2 HLh2 word. pose proof (osd_W_ge N) as HW.
  destruct (prepare_pair o o2 S1 S2) as (G & perm & sp & cw & G2 & perm2 & sp2 & cw2 & X & pi & E1 & E2 & P1 & RG & (Lp2 & Np2) & Ls2 & Ns2 & Zs2 & HT).
  pose proof (p_soft _ _ _ _ _ _ _ _ _ _ P1) as (Ls & Ns & Zs). pose proof (p_perm _ _ _ _ _ _ _ _ _ _ P1) as (Lp & Np).
  pose proof (p_rep _ _ _ _ _ _ _ _ _ _ P1) as RG1. pose proof (p_bij _ _ _ _ _ _ _ _ _ _ P1) as BJ.
  pose proof HT as (Lw & Lw2 & Hw).
  unfold osdl_decode. cbv zeta. rewrite E1, E2. cbn [bind].
  destruct (fill_from (fun i => nth i cw 0%Z) (fun i candidate => c <- rd cw i ;; wr candidate i c) 0 W (om_candidate o) 0%Z) as (cand & C1 & L1 & H1); [lia|rewrite LC; nia| |].
  { intros i b Hi _ _. rewrite (rd_nth cw i 0%Z) by lia. reflexivity. }
  rewrite C1. cbn [bind].
  destruct (fill_from (fun i => nth i cw2 0%Z) (fun i candidate => c <- rd cw2 i ;; wr candidate i c) 0 W (om_candidate o2) 0%Z) as (cand2 & C2 & L2 & H2); [lia|rewrite LC2; nia| |].
  { intros i b Hi _ _. rewrite (rd_nth cw2 i 0%Z) by lia. reflexivity. }
  rewrite C2. cbn [bind].
  pose proof (rword_metric N K soft genmat HK HN Hint8 Hsoft Hgen _ _ _ _ _ _ P1 [] cw (rword_nil N K soft genmat _ _ _ _ _ _ P1)) as EM.
  pose proof (turned_metric N K HK (fun i => c (pi i)) sp sp2 Ls Ls2 Ns2 Zs Zs2 cw cw2 HT) as RM. rewrite EM in RM |- *. cbn [bind].
  destruct (osd_metric W cw2 sp2) as [met| | |]; cbn in RM; try contradiction. rewrite <- RM. cbn [bind]. clear met RM.
  rewrite !wr_Ok by lia. cbn [bind].
  destruct (fill_from (fun i => (-1)%Z) (fun i score => wr score i (-1)%Z) 1 L (upd score 0 (corr N K soft X pi [])) 0%Z) as (sc & E3 & L3 & H3); [exact HL|rewrite length_upd; lia|reflexivity|].
  rewrite E3. cbn [bind].
  destruct (fill_from (fun i => (-1)%Z) (fun i score => wr score i (-1)%Z) 1 L (upd score2 0 (corr N K soft X pi [])) 0%Z) as (sc2 & E3' & L3' & H3'); [exact HL|rewrite length_upd; lia|reflexivity|].
  rewrite E3'. cbn [bind].
  destruct (fill_from (fun i => i) (fun i cperm => wr cperm i i) 0 L cperm 0) as (cp & E4 & L4 & H4); [lia|lia|reflexivity|].
  rewrite E4. cbn [bind].
  destruct (fill_from (fun i => i) (fun i cperm => wr cperm i i) 0 L cperm2 0) as (cp2 & E4' & L4' & H4'); [lia|lia|reflexivity|].
  rewrite E4'. cbn [bind]. rewrite length_upd in L3, L3'.
  assert (SC0 : forall i, i < L -> nth i sc 0%Z = if i =? 0 then corr N K soft X pi [] else (-1)%Z).
  { intros i Hi. rewrite H3. destruct i as [|i]; [cbn [Nat.leb andb]; rewrite nth_upd; replace (0 <? length score) with true by lia; reflexivity|]. replace (S i <? L) with true by lia. reflexivity. }
  assert (sc2 = sc) as ->.
  { apply (list_ext _ _ 0%Z); [lia|]. intros i Hi. rewrite SC0, H3' by lia. destruct i as [|i]; [cbn [Nat.leb andb]; rewrite nth_upd; replace (0 <? length score2) with true by lia; reflexivity|]. replace (S i <? L) with true by lia. reflexivity. }
  assert (CP0 : forall i, i < L -> nth i cp 0 = i). { intros i Hi. rewrite H4. replace (i <? L) with true by lia. reflexivity. }
  assert (cp2 = cp) as ->. { apply (list_ext _ _ 0); [lia|]. intros i Hi. rewrite CP0, H4' by lia. replace (i <? L) with true by lia. reflexivity. }
  assert (LR : list_rel N (fun i => c (pi i)) L (cw, (cand, sc, cp)) (cw2, (cand2, sc, cp))).
  { split; [exact HT|]. split; [reflexivity|]. split; [reflexivity|]. split; [lia|]. split; [lia|]. split; [lia|]. split; [lia|]. split; [|split].
    - intros j Hj. rewrite CP0; exact Hj.
    - intros a b Ha Hb. rewrite !CP0 by assumption. auto.
    - intros j Hj Hs i Hi. rewrite SC0 in Hs by exact Hj. destruct j as [|j]; [|cbn in Hs; lia]. rewrite CP0 by exact Hj. cbn [Nat.mul Nat.add].
      rewrite H1, H2. replace (i <? W) with true by lia. cbn [Nat.leb andb]. apply Hw. exact Hi. }
  destruct (list_search N K soft genmat HK HN Hint8 Hsoft Hgen _ _ _ _ _ _ P1 L (min O 6) cand sc cp HL) as (cw' & ((cand', sc'), cp') & ES & HX).
  { lia. } { lia. } { lia. }
  { intros i Hi. rewrite H1. replace (i <? W) with true by lia. reflexivity. }
  { rewrite EM. f_equal. rewrite SC0 by lia. reflexivity. }
  { intros i Hi. rewrite SC0 by lia. replace (i =? 0) with false by lia. reflexivity. }
  { exact CP0. }
  assert (F1 : forall (a : nat) (s t : list Z * (list Z * list Z * list nat)), a < K -> list_rel N (fun i => c (pi i)) L s t ->
    rel (list_rel N (fun i => c (pi i)) L) ((fun j '(codeword, x) => codeword <- osd_flip W G j codeword ;; Ok (codeword, x)) a s) ((fun j '(codeword, x) => codeword <- osd_flip W G2 j codeword ;; Ok (codeword, x)) a t)).
  { intros a (u & ((v & v') & v'')) (u2 & ((v2 & v2') & v2'')) Ha (Y1 & Y2). apply (rel_bind (turned N (fun i => c (pi i)))); [apply (turned_flip N K HK _ sp sp2 Ls Ls2 Ns2 Zs Zs2 G G2 X RG1 RG); assumption|]. intros w w2 Hww. split; assumption. }
  pose proof (rel_search K (list_rel N (fun i => c (pi i)) L) _ _ (osdl_update W L sp) (osdl_update W L sp2) F1
    (fun s t => turned_list_update N K HK _ sp sp2 Ls Ls2 Ns2 Zs Zs2 L s t HL) (min O 6) 0 _ _ LR) as RS.
  rewrite ES in RS |- *. cbn [bind].
  match goal with |- context [osd_search K ?f ?u ?d 0 (cw2, ?x)] => destruct (osd_search K f u d 0 (cw2, x)) as [(cw2' & ((cand2' & sc2') & cp2'))| | |]; cbn [rel] in RS; try contradiction end.
  destruct RS as (_ & -> & -> & LS' & LP' & LC' & LC2' & PB & _ & HQ). cbn [bind].
  destruct (listed_means N K soft genmat HK Hsoft Hgen _ _ _ _ _ _ P1 _ _ _ _ _ HX) as (_ & _ & _ & _ & es & LE & NDe & PE & _ & HE & HD & HA).
  destruct (emit_ok _ _ _ _ _ _ perm L cand' sc' cp' rank hard P1 Lp Np LC' LS' LP' PB LRk HB HLh) as (r & rk & h & EE & _ & _ & RK1 & RK2 & HW1).
  destruct (emit_ok _ _ _ _ _ _ perm2 L cand2' sc' cp' rank2 hard2 P1 Lp2 Np2 LC2' LS' LP' PB LRk2 HB2 HLh2) as (r2 & rk2 & h2 & EE2 & _ & _ & RK1' & RK2' & HW1').
  rewrite EE, EE2. cbn [bind].
  assert (WC : forall j e, j < L -> slot N K soft X pi cand' (nth j cp' 0) e -> agree N (word h j) (cword N K soft X pi e)).
  { intros j e Hj HSl p Hp. destruct (pi_onto N K soft genmat HK Hsoft Hgen _ _ _ _ _ _ P1 p Hp) as (i & Hi & <-). unfold word. rewrite HW1 by assumption. rewrite (HSl i Hi), tob_b2z''.
    symmetry. apply (cword_pi N K soft genmat HK Hsoft Hgen _ _ _ _ _ _ P1). exact Hi. }
  exists rk, h, rk2, h2, (length es), (map pi (seq 0 K)). split; [reflexivity|]. split; [reflexivity|]. split; [|split; [exact LE|split; [exact (p_basis _ _ _ _ _ _ _ _ _ _ P1)|split; [|split; [|split]]]]].
  - induction j as [|j IH]; intros Hj; [rewrite RK1, RK1' by exact HL; reflexivity|]. rewrite RK2, RK2', IH by lia. reflexivity.
  - intros j Hj. destruct (HE j Hj) as (X1 & X2 & X3). destruct (PE _ (nth_In es [] Hj)) as (Y1 & Y2). pose proof (WC j _ ltac:(lia) X2) as EQ. split; [split|].
    + apply (Proof_osd6.in_code_ext N K MM (cword N K soft X pi (nth j es []))); [intros i Hi; symmetry; apply EQ; exact Hi|]. apply (cword_code N K soft genmat HK Hsoft Hgen _ _ _ _ _ _ P1).
    + rewrite (flips_cword N K soft genmat HK Hsoft Hgen _ _ _ _ _ _ P1 (nth j es [])) by (try exact Y1; exact EQ). exact Y2.
    + rewrite (corr_ext N K soft genmat HK Hsoft Hgen _ _ EQ). exact X3.
  - intros i j Hij HAg. destruct (HE i ltac:(lia)) as (_ & A2 & _). destruct (HE j ltac:(lia)) as (_ & B2 & _).
    pose proof (WC i _ ltac:(lia) A2) as Q1. pose proof (WC j _ ltac:(lia) B2) as Q2.
    assert (EQ : nth i es [] = nth j es []).
    { apply (cword_distinct N K soft genmat HK Hsoft Hgen _ _ _ _ _ _ P1); [apply PE, nth_In; lia|apply PE, nth_In; lia|]. intros p Hp. rewrite <- Q1, <- Q2 by exact Hp. apply HAg. exact Hp. }
    apply (proj1 (NoDup_nth es []) NDe) in EQ; lia.
  - intros d (Hd & Hf) H0. destruct (HA d Hd Hf H0) as [(j & Hj & Hag)|(HF & HA')].
    + left. exists j. split; [exact Hj|]. intros i Hi. destruct (HE j Hj) as (_ & A2 & _). rewrite (WC j _ ltac:(lia) A2) by exact Hi. apply Hag. exact Hi.
    + right. exact HF.
  - intros j Hj p Hp. assert (j < L) as HjL by lia. destruct (pi_onto N K soft genmat HK Hsoft Hgen _ _ _ _ _ _ P1 p Hp) as (i & Hi & <-). unfold word. rewrite HW1, HW1' by assumption.
    assert (j = 0 \/ (0 <= nth j sc' 0)%Z) as Hs. { destruct Hj as [Hj|Hj]; [left; exact Hj|right]. destruct (HE j Hj) as (-> & _ & X3). exact X3. }
    destruct (HQ j HjL Hs i Hi) as (u & -> & ->). rewrite !tob_b2z''. reflexivity.
Qed.
End Pair.
