(** Proofs about Model_osd: the nested search loops. *)
From Coq Require Import ZifyBool ZifyNat Permutation Sorted.
From Verif Require Import Cpp Model_bits Spec_bits Proof_bits Model_osd Spec_osd Proof_osd1 Proof_osd2 Proof_osd3 Proof_osd4.
Ltac Zify.zify_post_hook ::= idtac.
Local Open Scope nat_scope.

(** ** the flip patterns visited, in order *)
Fixpoint vis (K d start : nat) (e : list nat) : list (list nat) :=
  match d with
  | 0 => []
  | S d => flat_map (fun a => (e ++ [a]) :: vis K d (a + 1) (e ++ [a])) (seq start (K - start))
  end.
Definition pattern (start K : nat) (t : list nat) : Prop := StronglySorted lt t /\ Forall (fun a => start <= a < K) t.
Lemma vis_In K d : forall start e e', In e' (vis K d start e) <-> exists t, e' = e ++ t /\ t <> [] /\ pattern start K t /\ length t <= d.
Proof.
  induction d as [|d IH]; intros start e e'; cbn [vis].
  - split; [intros []|]. intros (t & _ & Ht & _ & L). destruct t; [congruence|cbn in L; lia].
  - rewrite in_flat_map. split.
    + intros (a & Ha & H). apply in_seq in Ha. destruct H as [<-|H].
      * exists [a]. split; [reflexivity|]. split; [discriminate|]. split; [|cbn; lia]. split; repeat constructor; lia.
      * apply IH in H. destruct H as (t & -> & Ht & (S & F) & L). exists (a :: t). split; [rewrite <- app_assoc; reflexivity|]. split; [discriminate|]. split; [|cbn; lia]. split.
        -- constructor; [exact S|]. apply Forall_impl with (2 := F). intros x Hx. lia.
        -- constructor; [lia|]. apply Forall_impl with (2 := F). intros x Hx. lia.
    + intros (t & -> & Ht & (S & F) & L). destruct t as [|a t]; [congruence|]. inversion S as [|? ? S' FS]; subst. inversion F as [|? ? Fa F']; subst. exists a. split; [apply in_seq; lia|].
      destruct t as [|b t]; [left; reflexivity|]. right. apply IH. exists (b :: t). split; [rewrite <- app_assoc; reflexivity|]. split; [discriminate|]. split; [|cbn in *; lia]. split; [exact S'|].
      rewrite Forall_forall in *. intros x Hx. specialize (FS x Hx). specialize (F' x Hx). lia.
Qed.
Lemma vis_NoDup K d : forall start e, NoDup (vis K d start e).
Proof.
  induction d as [|d IH]; intros start e; cbn [vis]; [constructor|].
  generalize (K - start) as n. intros n. revert start. induction n as [|n IHn]; intros start; cbn [seq flat_map]; [constructor|].
  cbn [Datatypes.app]. constructor.
  - intros H. apply in_app_or in H. destruct H as [H|H].
    + apply vis_In in H. destruct H as (t & E & Ht & _). rewrite <- (app_nil_r (e ++ [start])) in E at 1. apply app_inv_head in E. congruence.
    + apply in_flat_map in H. destruct H as (a & Ha & H). apply in_seq in Ha. destruct H as [E|H].
      * apply app_inv_head in E. injection E as E. lia.
      * apply vis_In in H. destruct H as (t & E & _). rewrite <- app_assoc in E. apply app_inv_head in E. injection E as E. lia.
  - assert (ND : forall A (l1 l2 : list A), NoDup l1 -> NoDup l2 -> (forall x, In x l1 -> ~ In x l2) -> NoDup (l1 ++ l2)).
    { clear. intros A l1 l2 H1 H2 H. induction l1 as [|x l1 IH]; [exact H2|]. inversion H1; subst. cbn. constructor.
      - intros HX. apply in_app_or in HX. destruct HX as [HX|HX]; [contradiction|]. apply (H x); [left; reflexivity|exact HX].
      - apply IH; [assumption|]. intros y Hy. apply H. right. exact Hy. }
    apply ND; [apply IH|apply IHn|]. intros x Hx H. apply vis_In in Hx. destruct Hx as (t & -> & _). apply in_flat_map in H. destruct H as (a & Ha & H). apply in_seq in Ha. destruct H as [E|H].
    + rewrite <- app_assoc in E. apply app_inv_head in E. injection E as E. lia.
    + apply vis_In in H. destruct H as (t' & E & _). rewrite <- !app_assoc in E. apply app_inv_head in E. injection E as E. lia.
Qed.

(** the patterns of the whole search *)
Definition all_vis (K d : nat) : list (list nat) := [] :: vis K d 0 [].
Lemma all_vis_In K d e : In e (all_vis K d) <-> pattern 0 K e /\ length e <= d.
Proof.
  unfold all_vis. cbn [In]. rewrite vis_In. split.
  - intros [<-|(t & -> & Ht & HP & L)]; [split; [split; constructor|cbn; lia]|]. cbn [Datatypes.app]. auto.
  - intros (HP & L). destruct e as [|a e]; [left; reflexivity|]. right. exists (a :: e). split; [reflexivity|]. split; [discriminate|]. auto.
Qed.
Lemma all_vis_NoDup K d : NoDup (all_vis K d).
Proof. constructor; [|apply vis_NoDup]. intros H. apply vis_In in H. destruct H as (t & E & Ht & _). cbn in E. congruence. Qed.

(** ** the loops *)
Section S.
Variables (C A : Type) (K : nat).
Variable R : list nat -> C -> Prop.
Variable flip : nat -> C * A -> res (C * A).
Variable update : C * A -> res (C * A).
Variable P : list (list nat) -> A -> Prop.
Hypothesis Hin : forall e a cw x, R e cw -> a < K -> exists cw', flip a (cw, x) = Ok (cw', x) /\ R (e ++ [a]) cw'.
Hypothesis Hout : forall e a cw x, R (e ++ [a]) cw -> a < K -> exists cw', flip a (cw, x) = Ok (cw', x) /\ R e cw'.
Hypothesis Hupd : forall e cw v x, R e cw -> P v x -> exists x', update (cw, x) = Ok (cw, x') /\ P (v ++ [e]) x'.
Lemma search_ok d : forall start e cw v x, start <= K -> R e cw -> P v x ->
  exists cw' x', osd_search K flip update d start (cw, x) = Ok (cw', x') /\ R e cw' /\ P (v ++ vis K d start e) x'.
Proof.
  induction d as [|d IH]; intros start e cw v x HS HR HP; cbn [osd_search vis].
  - exists cw, x. rewrite app_nil_r. auto.
  - edestruct (for_up_inv (fun a (s : C * A) => R e (fst s) /\ P (v ++ flat_map (fun a => (e ++ [a]) :: vis K d (a + 1) (e ++ [a])) (seq start (a - start))) (snd s))) as ((cw' & x') & E & H1 & H2).
    4: { exists cw', x'. split; [exact E|]. auto. }
    + exact HS.
    + intros a (c1 & x1) Ha (HR1 & HP1). cbn [fst snd] in *. destruct (Hin e a c1 x1 HR1 ltac:(lia)) as (c2 & E2 & HR2). rewrite E2. cbn [bind].
      destruct (Hupd (e ++ [a]) c2 _ x1 HR2 HP1) as (x3 & E3 & HP3). rewrite E3. cbn [bind].
      destruct (IH (a + 1) (e ++ [a]) c2 _ x3 ltac:(lia) HR2 HP3) as (c4 & x4 & E4 & HR4 & HP4). rewrite E4. cbn [bind].
      destruct (Hout e a c4 x4 HR4 ltac:(lia)) as (c5 & E5 & HR5). rewrite E5. exists (c5, x4). split; [reflexivity|]. cbn [fst snd]. split; [exact HR5|].
      replace (S a - start) with (S (a - start)) by lia. rewrite seq_S, flat_map_app. cbn [flat_map]. rewrite app_nil_r. replace (start + (a - start)) with a by lia.
      rewrite <- !app_assoc in HP4. cbn [Datatypes.app] in HP4. exact HP4.
    + cbn [fst snd]. rewrite Nat.sub_diag. cbn [seq flat_map]. rewrite app_nil_r. auto.
Qed.
End S.

(** ** words and patterns *)
Section Q.
Variables N K : nat.
Notation W := (osd_W N).
Variables soft genmat : list Z.
Hypothesis HK : 1 <= K <= N.
Hypothesis HN : (Z.of_nat N <= 32768)%Z.
Hypothesis Hint8 : Forall int8 soft.
Hypothesis Hsoft : N <= length soft.
Hypothesis Hgen : N * K <= length genmat.
Variables (G : list Z) (perm : list nat) (softperm codeword : list Z) (M : nat -> nat -> bool) (pi : nat -> nat).
Hypothesis HP : prepared N K soft genmat G perm softperm codeword M pi.

Definition hd (j : nat) : bool := decided soft (pi j).
Definition wd (e : list nat) : nat -> bool := fold_left (fun m a => madd m a true) e hd.
Lemma wd_snoc e a : wd (e ++ [a]) = madd (wd e) a true.
Proof. unfold wd. rewrite fold_left_app. reflexivity. Qed.
Lemma wd_val e j : NoDup e -> wd e j = xorb (hd j) (existsb (Nat.eqb j) e).
Proof.
  induction e as [|a e IH] using rev_ind; intros ND; [cbn; rewrite xorb_false_r; reflexivity|]. rewrite wd_snoc, existsb_app. cbn [existsb]. rewrite orb_false_r. apply NoDup_remove in ND. rewrite app_nil_r in ND. destruct ND as (ND & NI).
  unfold madd. rewrite IH by exact ND. destruct (Nat.eqb_spec j a) as [->|]; [|rewrite orb_false_r; reflexivity]. destruct (existsb (Nat.eqb a) e) eqn:E; [|destruct (hd a); reflexivity].
  exfalso. apply existsb_exists in E. destruct E as (x & Hx & E). apply Nat.eqb_eq in E. subst. contradiction.
Qed.
Definition rword (e : list nat) (cw : list Z) : Prop := length cw = W /\ forall i, i < N -> nth i cw 0%Z = Z.b2z (product K M (wd e) i).
Lemma rword_nil : rword [] codeword.
Proof. exact (p_word _ _ _ _ _ _ _ _ _ _ HP). Qed.
Lemma flip_ok j cw (f : nat -> bool) : j < K -> length cw = W -> (forall i, i < N -> nth i cw 0%Z = Z.b2z (f i)) ->
  exists cw', osd_flip W G j cw = Ok cw' /\ length cw' = W /\ forall i, i < N -> nth i cw' 0%Z = Z.b2z (xorb (f i) (M j i)).
Proof.
  intros Hj L HF. pose proof (osd_W_ge N) as HW. pose proof (p_rep _ _ _ _ _ _ _ _ _ _ HP) as (LG & HG). unfold osd_flip.
  destruct (fill_from (fun i => Z.lxor (nth i cw 0%Z) (nth (W * j + i) G 0%Z)) (fun i codeword => x <- rd codeword i ;; g <- rd G (W * j + i) ;; wr codeword i (Z.lxor x g)) 0 W cw 0%Z) as (c & E & Lc & Hc); [lia|lia| |].
  - intros i b Hi Lb Hb. rewrite (rd_nth b i 0%Z) by lia. cbn [bind]. rewrite (rd_nth G _ 0%Z) by (rewrite LG; apply (index_lt W N); lia). cbn [bind]. rewrite Hb by lia. reflexivity.
  - exists c. split; [exact E|]. split; [lia|]. intros i Hi. rewrite Hc. replace (i <? W) with true by lia. cbn [Nat.leb andb]. rewrite HF, HG, lxor_b2z by lia. reflexivity.
Qed.
Lemma flip_in {A} e a cw (x : A) : rword e cw -> a < K -> exists cw', (codeword <- osd_flip W G a cw ;; Ok (codeword, x)) = Ok (cw', x) /\ rword (e ++ [a]) cw'.
Proof.
  intros (L & H) Ha. destruct (flip_ok a cw _ Ha L H) as (c & E & Lc & Hc). exists c. rewrite E. split; [reflexivity|]. split; [exact Lc|]. intros i Hi. rewrite Hc by exact Hi.
  rewrite wd_snoc, product_madd by exact Ha. reflexivity.
Qed.
Lemma flip_out {A} e a cw (x : A) : rword (e ++ [a]) cw -> a < K -> exists cw', (codeword <- osd_flip W G a cw ;; Ok (codeword, x)) = Ok (cw', x) /\ rword e cw'.
Proof.
  intros (L & H) Ha. destruct (flip_ok a cw _ Ha L H) as (c & E & Lc & Hc). exists c. rewrite E. split; [reflexivity|]. split; [exact Lc|]. intros i Hi. rewrite Hc by exact Hi.
  rewrite wd_snoc, product_madd by exact Ha. cbn [andb]. destruct (product K M (wd e) i), (M a i); reflexivity.
Qed.

(** back to the order of the caller *)
Definition pinv (p : nat) : nat := match find (fun i => pi i =? p) (seq 0 N) with Some i => i | None => 0 end.
Lemma pi_lt i : i < N -> pi i < N.
Proof. intros Hi. assert (H : In (pi i) (seq 0 N)) by (apply (Permutation_in _ (p_bij _ _ _ _ _ _ _ _ _ _ HP)), in_map, in_seq; lia). apply in_seq in H. lia. Qed.
Lemma pi_onto p : p < N -> exists i, i < N /\ pi i = p.
Proof.
  intros Hp. assert (H : In p (map pi (seq 0 N))) by (apply (Permutation_in _ (Permutation_sym (p_bij _ _ _ _ _ _ _ _ _ _ HP))), in_seq; lia).
  apply in_map_iff in H. destruct H as (i & E & Hi). apply in_seq in Hi. exists i. split; [lia|exact E].
Qed.
Lemma pi_inj i j : i < N -> j < N -> pi i = pi j -> i = j.
Proof.
  intros Hi Hj E. assert (ND : NoDup (map pi (seq 0 N))) by (apply (Permutation_NoDup (Permutation_sym (p_bij _ _ _ _ _ _ _ _ _ _ HP))), seq_NoDup).
  apply (proj1 (NoDup_nth _ 0) ND); try (rewrite map_length, seq_length; assumption). rewrite !nth_map_seq. replace (i <? N) with true by lia. replace (j <? N) with true by lia. exact E.
Qed.
Lemma pinv_pi i : i < N -> pinv (pi i) = i.
Proof.
  intros Hi. unfold pinv. destruct (find (fun x => pi x =? pi i) (seq 0 N)) as [j|] eqn:E.
  - apply find_some in E. destruct E as (Hj & E). apply in_seq in Hj. apply Nat.eqb_eq in E. apply pi_inj in E; lia.
  - exfalso. pose proof (find_none _ _ E i ltac:(apply in_seq; lia)) as H. cbv beta in H. rewrite Nat.eqb_refl in H. discriminate.
Qed.
Definition cword (e : list nat) (p : nat) : bool := product K M (wd e) (pinv p).
Lemma cword_pi e i : i < N -> cword e (pi i) = product K M (wd e) i.
Proof. intros Hi. unfold cword. rewrite pinv_pi by exact Hi. reflexivity. Qed.
Definition corr (e : list nat) : Z := correlation N soft (cword e).
Lemma rword_metric e cw : rword e cw -> osd_metric W cw softperm = Ok (corr e).
Proof.
  intros (L & H). pose proof (p_soft _ _ _ _ _ _ _ _ _ _ HP) as (LS & HS & HZ). apply (metric_ok N K soft genmat HK HN Hsoft Hint8 Hgen softperm cw pi (cword e) (p_bij _ _ _ _ _ _ _ _ _ _ HP)); auto.
  intros i Hi. rewrite H, cword_pi by exact Hi. reflexivity.
Qed.
Lemma in_code_pi c : in_code N K (entry N genmat) c <-> in_code N K M (fun i => c (pi i)).
Proof.
  rewrite <- (requiv_code N K _ _ (fun i => c (pi i)) (p_code _ _ _ _ _ _ _ _ _ _ HP)). split; intros (m & Hm); exists m.
  - intros i Hi. rewrite Hm by (apply pi_lt; exact Hi). reflexivity.
  - intros p Hp. destruct (pi_onto p Hp) as (i & Hi & <-). rewrite Hm by exact Hi. reflexivity.
Qed.
Lemma cword_code e : in_code N K (entry N genmat) (cword e).
Proof. apply in_code_pi. exists (wd e). intros i Hi. apply cword_pi. exact Hi. Qed.
Lemma product_sys m j : j < K -> product K M m j = m j.
Proof.
  intros Hj. unfold product. pose proof (p_sys _ _ _ _ _ _ _ _ _ _ HP) as HS. rewrite (parity_one K _ j Hj); [rewrite HS, Nat.eqb_refl, andb_true_r by lia; reflexivity|].
  intros r Hr Hne. rewrite HS by lia. replace (r =? j) with false by lia. apply andb_false_r.
Qed.
Lemma pattern_NoDup s k e : pattern s k e -> NoDup e.
Proof.
  intros (S & _). induction S as [|x l S IH F]; constructor; [|exact IH]. intros H. rewrite Forall_forall in F. specialize (F x H). lia.
Qed.
Notation basis := (map pi (seq 0 K)).
(** the pattern of a codeword *)
Definition pat (c : nat -> bool) : list nat := filter (fun j => xorb (c (pi j)) (hd j)) (seq 0 K).
Lemma pat_pattern c : pattern 0 K (pat c).
Proof.
  split; [apply filter_seq_sorted|]. apply Forall_forall. intros x Hx. apply filter_In in Hx. destruct Hx as (Hx & _). apply in_seq in Hx. lia.
Qed.
Lemma pat_flips c : length (pat c) = flips soft basis c.
Proof.
  unfold pat, flips. generalize (seq 0 K). intros l. induction l as [|x l IH]; [reflexivity|]. cbn [map filter]. change (hd x) with (decided soft (pi x)).
  destruct (xorb (c (pi x)) (decided soft (pi x))); cbn [length]; rewrite IH; reflexivity.
Qed.
Lemma cword_pat c : in_code N K (entry N genmat) c -> forall p, p < N -> cword (pat c) p = c p.
Proof.
  intros HC p Hp. apply in_code_pi in HC. destruct HC as (m & Hm). destruct (pi_onto p Hp) as (i & Hi & <-). rewrite cword_pi, Hm by exact Hi.
  apply product_ext; [|reflexivity]. intros j Hj. rewrite wd_val by (apply (pattern_NoDup 0 K), pat_pattern).
  assert (EJ : c (pi j) = m j) by (rewrite Hm by lia; apply product_sys; exact Hj).
  assert (EX : existsb (Nat.eqb j) (pat c) = xorb (m j) (hd j)); [|rewrite EX; destruct (m j), (hd j); reflexivity].
  destruct (xorb (m j) (hd j)) eqn:X.
  - apply existsb_exists. exists j. split; [|apply Nat.eqb_refl]. apply filter_In. split; [apply in_seq; lia|]. rewrite EJ. exact X.
  - destruct (existsb (Nat.eqb j) (pat c)) eqn:Y; [|reflexivity]. apply existsb_exists in Y. destruct Y as (x & Hx & Y). apply Nat.eqb_eq in Y. subst x. apply filter_In in Hx. rewrite EJ, X in Hx. destruct Hx. discriminate.
Qed.
Lemma sorted_eq l1 : forall l2 : list nat, StronglySorted lt l1 -> StronglySorted lt l2 -> (forall x, In x l1 <-> In x l2) -> l1 = l2.
Proof.
  induction l1 as [|x l1 IH]; intros [|y l2] S1 S2 H; [reflexivity| | |].
  - exfalso. apply (H y). left. reflexivity.
  - exfalso. apply (H x). left. reflexivity.
  - inversion S1 as [|? ? S1' F1]; subst. inversion S2 as [|? ? S2' F2]; subst. rewrite Forall_forall in F1, F2. assert (x = y).
    { destruct (proj1 (H x) (or_introl eq_refl)) as [E|HX]; [congruence|]. destruct (proj2 (H y) (or_introl eq_refl)) as [E|HY]; [congruence|]. specialize (F1 y HY). specialize (F2 x HX). lia. }
    subst y. f_equal. apply IH; try assumption. intros z. split; intros Hz.
    + destruct (proj1 (H z) (or_intror Hz)) as [E|HZ]; [|exact HZ]. subst z. specialize (F1 x Hz). lia.
    + destruct (proj2 (H z) (or_intror Hz)) as [E|HZ]; [|exact HZ]. subst z. specialize (F2 x Hz). lia.
Qed.
Lemma pat_cword e c : pattern 0 K e -> (forall p, p < N -> c p = cword e p) -> pat c = e.
Proof.
  intros HE HC. apply sorted_eq; [apply filter_seq_sorted|apply HE|]. intros j. pose proof (pattern_NoDup 0 K e HE) as ND. destruct HE as (_ & F). rewrite Forall_forall in F.
  assert (EJ : j < K -> xorb (c (pi j)) (hd j) = existsb (Nat.eqb j) e).
  { intros Hj. rewrite HC by (apply pi_lt; lia). rewrite cword_pi, product_sys, wd_val by (try assumption; lia). destruct (hd j), (existsb (Nat.eqb j) e); reflexivity. }
  unfold pat. rewrite filter_In, in_seq. split.
  - intros (Hj & X). rewrite EJ in X by lia. apply existsb_exists in X. destruct X as (x & Hx & X). apply Nat.eqb_eq in X. subst x. exact Hx.
  - intros HI. specialize (F j HI). split; [lia|]. rewrite EJ by lia. apply existsb_exists. exists j. split; [exact HI|apply Nat.eqb_refl].
Qed.
Lemma flips_cword e c : pattern 0 K e -> (forall p, p < N -> c p = cword e p) -> flips soft basis c = length e.
Proof. intros HE HC. rewrite <- pat_flips, (pat_cword e) by assumption. reflexivity. Qed.
Lemma corr_ext c c' : (forall p, p < N -> c p = c' p) -> correlation N soft c = correlation N soft c'.
Proof. intros H. unfold correlation. f_equal. apply map_ext_in. intros i Hi. apply in_seq in Hi. rewrite H by lia. reflexivity. Qed.
Lemma corr_pat c : in_code N K (entry N genmat) c -> corr (pat c) = correlation N soft c.
Proof. intros HC. apply corr_ext. apply cword_pat. exact HC. Qed.

(** ** the decoder with one result *)
Definition count_best (best : Z) (v : list (list nat)) : nat := length (filter (fun e => corr e =? best)%Z v).
Definition single (v : list (list nat)) (x : Z * Z * list Z) : Prop :=
  let '(best, next, cand) := x in
  (exists e, In e v /\ best = corr e /\ length cand = W /\ forall i, i < N -> nth i cand 0%Z = Z.b2z (product K M (wd e) i)) /\
  (forall e, In e v -> (corr e <= best)%Z) /\
  ((best < 0)%Z \/ ((next <= best)%Z /\ (next = best <-> 2 <= count_best best v))).
Lemma copy_ok cw cand : length cw = W -> length cand = W -> exists cand', for_up 0 N (fun i candidate => c <- rd cw i ;; wr candidate i c) cand = Ok cand' /\
  length cand' = W /\ forall i, i < N -> nth i cand' 0%Z = nth i cw 0%Z.
Proof.
  intros LW LC. pose proof (osd_W_ge N) as HW. destruct (fill_from (fun i => nth i cw 0%Z) (fun i candidate => c <- rd cw i ;; wr candidate i c) 0 N cand 0%Z) as (c & E & L & H); [lia|lia| |].
  - intros i b Hi _ _. rewrite (rd_nth cw i 0%Z) by lia. reflexivity.
  - exists c. split; [exact E|]. split; [lia|]. intros i Hi. rewrite H. replace (i <? N) with true by lia. reflexivity.
Qed.
Lemma update_ok e cw v x : rword e cw -> single v x -> exists x', osd_update W N softperm (cw, x) = Ok (cw, x') /\ single (v ++ [e]) x'.
Proof.
  intros HR. destruct x as ((best, next), cand). intros ((e0 & I0 & -> & LC & HC) & HM & HU). unfold osd_update. rewrite (rword_metric e cw HR). cbn [bind].
  assert (CA : forall b, count_best b (v ++ [e]) = count_best b v + if (corr e =? b)%Z then 1 else 0).
  { intros b. unfold count_best. rewrite filter_app, app_length. cbn [filter]. destruct (corr e =? b)%Z; reflexivity. }
  assert (C1 : 1 <= count_best (corr e0) v).
  { unfold count_best. assert (H : In e0 (filter (fun e => corr e =? corr e0)%Z v)) by (apply filter_In; split; [exact I0|apply Z.eqb_refl]). destruct (filter _ v); [destruct H|cbn; lia]. }
  assert (HA : forall e1 b, (forall e, In e v -> (corr e <= b)%Z) -> (corr e <= b)%Z -> In e1 (v ++ [e]) -> (corr e1 <= b)%Z).
  { intros e1 b H1 H2 H. apply in_app_or in H. destruct H as [H|[<-|[]]]; auto. }
  destruct (Z.ltb_spec (corr e0) (corr e)) as [H|H].
  - destruct HR as (LW & HR). destruct (copy_ok cw cand LW LC) as (c' & E & L' & H'). rewrite E. cbn [bind]. eexists. split; [reflexivity|]. split; [|split].
    + exists e. split; [apply in_or_app; right; left; reflexivity|]. split; [reflexivity|]. split; [exact L'|]. intros i Hi. rewrite H', HR by exact Hi. reflexivity.
    + intros e1. apply HA; [|lia]. intros e2 He2. specialize (HM e2 He2). lia.
    + right. split; [lia|]. rewrite CA, Z.eqb_refl. assert (C0 : count_best (corr e) v = 0).
      { unfold count_best. destruct (filter _ v) as [|e2 l] eqn:F; [reflexivity|]. assert (H2 : In e2 (filter (fun e1 => corr e1 =? corr e)%Z v)) by (rewrite F; left; reflexivity).
        apply filter_In in H2. destruct H2 as (H2 & E2). specialize (HM e2 H2). lia. }
      lia.
  - assert (ST : exists e1, In e1 (v ++ [e]) /\ corr e0 = corr e1 /\ length cand = W /\ forall i, i < N -> nth i cand 0%Z = Z.b2z (product K M (wd e1) i)).
    { exists e0. split; [apply in_or_app; left; exact I0|]. auto. }
    destruct (Z.ltb_spec next (corr e)) as [H2|H2]; (eexists; split; [reflexivity|]; split; [exact ST|]; split; [intros e1; apply HA; assumption|]); rewrite CA.
    + destruct HU as [HU|(HU & HE)]; [left; exact HU|right]. split; [lia|]. destruct (Z.eqb_spec (corr e) (corr e0)); lia.
    + destruct HU as [HU|(HU & HE)]; [left; exact HU|right]. split; [lia|]. destruct (Z.eqb_spec (corr e) (corr e0)); lia.
Qed.
Lemma single_search d best cand : osd_metric W codeword softperm = Ok best -> length cand = W -> (forall i, i < N -> nth i cand 0%Z = nth i codeword 0%Z) ->
  exists cw' x', osd_search K (fun j '(codeword, x) => codeword <- osd_flip W G j codeword ;; Ok (codeword, x)) (osd_update W N softperm) d 0 (codeword, (best, (-1)%Z, cand)) = Ok (cw', x') /\
    single (all_vis K d) x'.
Proof.
  intros EB LC HC. pose proof rword_nil as HR. rewrite (rword_metric [] codeword HR) in EB. injection EB as <-.
  edestruct (search_ok (list Z) (Z * Z * list Z) K rword (fun j '(codeword, x) => codeword <- osd_flip W G j codeword ;; Ok (codeword, x)) (osd_update W N softperm) single) with (d := d) (start := 0) (e := @nil nat) (cw := codeword) (v := [@nil nat]) (x := (corr [], (-1)%Z, cand)) as (cw' & x' & E & _ & HS).
  - intros e a cw x. apply flip_in.
  - intros e a cw x. apply flip_out.
  - apply update_ok.
  - lia.
  - exact HR.
  - split; [|split].
    + exists []. split; [left; reflexivity|]. split; [reflexivity|]. split; [exact LC|]. intros i Hi. rewrite HC by exact Hi. apply HR. exact Hi.
    + intros e [<-|[]]. lia.
    + destruct (Z.ltb_spec (corr []) 0); [left; assumption|right]. split; [lia|]. unfold count_best. cbn [filter]. rewrite Z.eqb_refl. cbn [length]. lia.
  - exists cw', x'. split; [exact E|]. exact HS.
Qed.

Lemma NoDup_filter' {A} (f : A -> bool) l : NoDup l -> NoDup (filter f l).
Proof. induction 1 as [|x l H ND IH]; cbn [filter]; [constructor|]. destruct (f x); [|exact IH]. constructor; [|exact IH]. rewrite filter_In. tauto. Qed.
(** what the final state means *)
Lemma single_means d best next cand : single (all_vis K d) (best, next, cand) -> exists e, pattern 0 K e /\ length e <= d /\ best = corr e /\ length cand = W /\
  (forall i, i < N -> nth i cand 0%Z = Z.b2z (cword e (pi i))) /\
  (forall c, in_code N K (entry N genmat) c -> flips soft basis c <= d -> (correlation N soft c <= best)%Z) /\
  ((0 <= best)%Z -> (best =? next)%Z = false <-> forall c, in_code N K (entry N genmat) c -> flips soft basis c <= d -> correlation N soft c = best -> forall i, i < N -> c i = cword e i).
Proof.
  intros ((e & HI & -> & LC & HC) & HM & HU). apply all_vis_In in HI. destruct HI as (HPt & HL). exists e. split; [exact HPt|]. split; [exact HL|]. split; [reflexivity|]. split; [exact LC|].
  split; [intros i Hi; rewrite HC, cword_pi by exact Hi; reflexivity|].
  assert (IV : forall c, flips soft basis c <= d -> In (pat c) (all_vis K d)) by (intros c Hc; apply all_vis_In; split; [apply pat_pattern|rewrite pat_flips; exact Hc]).
  split.
  - intros c Hc Hf. rewrite <- (corr_pat c Hc). apply HM. apply IV. exact Hf.
  - intros H0. destruct HU as [HU|(HU & HE)]; [lia|].
    assert (IE : In e (all_vis K d)) by (apply all_vis_In; auto).
    assert (FE : In e (filter (fun e1 => corr e1 =? corr e)%Z (all_vis K d))) by (apply filter_In; split; [exact IE|apply Z.eqb_refl]).
    split.
    + intros HB c Hc Hf HCo. assert (C2 : ~ 2 <= count_best (corr e) (all_vis K d)) by lia.
      assert (EP : pat c = e).
      { assert (FP : In (pat c) (filter (fun e1 => corr e1 =? corr e)%Z (all_vis K d))) by (apply filter_In; split; [apply IV; exact Hf|rewrite corr_pat by exact Hc; lia]).
        unfold count_best in C2. destruct (filter (fun e1 => corr e1 =? corr e)%Z (all_vis K d)) as [|a [|b l]]; [destruct FE|destruct FE as [<-|[]]; destruct FP as [<-|[]]; reflexivity|cbn in C2; lia]. }
      intros i Hi. rewrite <- (cword_pat c Hc i Hi), EP. reflexivity.
    + intros HUq. destruct (Z.eqb_spec (corr e) next) as [E|]; [|reflexivity]. exfalso. assert (C2 : 2 <= count_best (corr e) (all_vis K d)) by (apply HE; lia).
      unfold count_best in C2. pose proof (NoDup_filter' (fun e1 => corr e1 =? corr e)%Z _ (all_vis_NoDup K d)) as ND.
      assert (AL : forall e1, In e1 (filter (fun e1 => corr e1 =? corr e)%Z (all_vis K d)) -> e1 = e).
      { intros e1 H1. apply filter_In in H1. destruct H1 as (H1 & E1). apply all_vis_In in H1. destruct H1 as (P1 & L1).
        assert (HQ : forall i, i < N -> cword e1 i = cword e i) by (apply HUq; [apply cword_code|rewrite (flips_cword e1) by (try exact P1; reflexivity); exact L1|change (corr e1 = corr e); lia]).
        rewrite <- (pat_cword e1 (cword e1)) by (try exact P1; reflexivity). apply pat_cword; [exact HPt|exact HQ]. }
      destruct (filter (fun e1 => corr e1 =? corr e)%Z (all_vis K d)) as [|a [|b l]]; [cbn in C2; lia|cbn in C2; lia|].
      inversion ND as [|? ? HN1 _]; subst. apply HN1. left. rewrite (AL a), (AL b) by (cbn; auto). reflexivity.
Qed.
(** ** the list decoder *)
Definition slot (cand : list Z) (k : nat) (e : list nat) : Prop := forall i, i < N -> nth (k * W + i) cand 0%Z = Z.b2z (product K M (wd e) i).
Definition best_first (L : nat) (v es : list (list nat)) (x : list Z * list Z * list nat) : Prop :=
  let '(cand, score, cperm) := x in
  incl es v /\ length es <= L /\
    (forall j, j < length es -> nth j score 0%Z = corr (nth j es []) /\ slot cand (nth j cperm 0) (nth j es []) /\ (0 <= corr (nth j es []))%Z) /\
    (forall i j, i < j < length es -> (corr (nth j es []) <= corr (nth i es []))%Z) /\
    (forall j, length es <= j < L -> (nth j score 0 < 0)%Z) /\
    (forall e, In e v -> (0 <= corr e)%Z -> In e es \/ (length es = L /\ forall j, j < L -> (corr e <= corr (nth j es []))%Z)).
Definition listed (L : nat) (v : list (list nat)) (x : list Z * list Z * list nat) : Prop :=
  let '(cand, score, cperm) := x in
  length cand = W * L /\ length score = L /\ length cperm = L /\
  (forall i, i < L -> nth i cperm 0 < L) /\ (forall i j, i < L -> j < L -> nth i cperm 0 = nth j cperm 0 -> i = j) /\
  (exists e, In e v /\ nth 0 score 0%Z = corr e /\ slot cand (nth 0 cperm 0) e) /\
  exists es, (NoDup v -> NoDup es) /\ best_first L v es x.

Lemma shift_ok L met (score : list Z) (cperm : list nat) pos : 1 <= L -> length score = L -> length cperm = L -> (nth (L - 1) score 0 < met)%Z ->
  exists j s1 c1 s2 c2, while_ L
     (fun '(j, score, cperm) => if 0 <? j then (x <- rd score (j - 1) ;; Ok (x <? met)%Z) else Ok false)
     (fun '(j, score, cperm) =>
        x <- rd score (j - 1) ;; score <- wr score j x ;;
        p <- rd cperm (j - 1) ;; cperm <- wr cperm j p ;;
        Ok (j - 1, score, cperm)) (L - 1, score, cperm) = Ok (j, s1, c1) /\ wr s1 j met = Ok s2 /\ wr c1 j pos = Ok c2 /\
   j < L /\ (j = 0 \/ (met <= nth (j - 1) score 0)%Z) /\ (forall x, j <= x < L -> (nth x score 0 < met)%Z) /\ length s2 = L /\ length c2 = L /\
   (forall x, x < L -> nth x s2 0%Z = if x <? j then nth x score 0%Z else if x =? j then met else nth (x - 1) score 0%Z) /\
   (forall x, x < L -> nth x c2 0 = if x <? j then nth x cperm 0 else if x =? j then pos else nth (x - 1) cperm 0).
Proof.
  intros HL LS LC HM.
  edestruct (while_inv (fun '(j, s, c) => j < L /\ (forall x, j <= x < L -> (nth x score 0 < met)%Z) /\ length s = L /\ length c = L /\
      (forall x, x < L -> nth x s 0%Z = if x <=? j then nth x score 0%Z else nth (x - 1) score 0%Z) /\
      (forall x, x < L -> nth x c 0 = if x <=? j then nth x cperm 0 else nth (x - 1) cperm 0)) (fun '(j, s, c) => j)
    (fun '(j, score, cperm) => if 0 <? j then (x <- rd score (j - 1) ;; Ok (x <? met)%Z) else Ok false)
    (fun '(j, score, cperm) =>
        x <- rd score (j - 1) ;; score <- wr score j x ;;
        p <- rd cperm (j - 1) ;; cperm <- wr cperm j p ;;
        Ok (j - 1, score, cperm))) as (((j & s1) & c1) & E & (H1 & H2 & H3 & H4 & H5 & H6) & HF).
  4: { rewrite E. exists j, s1, c1, (upd s1 j met), (upd c1 j pos). split; [reflexivity|]. rewrite !wr_Ok by lia. split; [reflexivity|]. split; [reflexivity|]. split; [exact H1|]. split.
       - destruct (Nat.ltb_spec 0 j) as [Hj|Hj]; [right|left; lia]. rewrite (rd_nth s1 _ 0%Z) in HF by lia. cbn [bind] in HF. injection HF as HF. rewrite H5 in HF by lia. replace (j - 1 <=? j) with true in HF by lia. lia.
       - split; [exact H2|]. rewrite !length_upd. split; [exact H3|]. split; [exact H4|]. split; intros x Hx; rewrite nth_upd.
         + replace (j <? length s1) with true by lia. rewrite andb_true_r, Nat.eqb_sym. destruct (Nat.eqb_spec x j) as [->|]; [replace (j <? j) with false by lia; reflexivity|]. rewrite H5 by exact Hx. replace (x <=? j) with (x <? j) by lia. reflexivity.
         + replace (j <? length c1) with true by lia. rewrite andb_true_r, Nat.eqb_sym. destruct (Nat.eqb_spec x j) as [->|]; [replace (j <? j) with false by lia; reflexivity|]. rewrite H6 by exact Hx. replace (x <=? j) with (x <? j) by lia. reflexivity. }
  - intros ((j & s) & c) (H1 & H2 & H3 & H4 & H5 & H6). destruct (Nat.ltb_spec 0 j) as [Hj|Hj]; [|eexists; split; [reflexivity|discriminate]].
    rewrite (rd_nth s _ 0%Z) by lia. cbn [bind]. eexists. split; [reflexivity|]. intros HB. rewrite wr_Ok by lia. cbn [bind]. rewrite (rd_nth c _ 0) by lia. cbn [bind]. rewrite wr_Ok by lia. cbn [bind].
    rewrite H5 in HB by lia. replace (j - 1 <=? j) with true in HB by lia.
    eexists. split; [reflexivity|]. split; [|lia]. split; [lia|]. rewrite !length_upd. split; [|split; [exact H3|split; [exact H4|split]]].
    + intros x Hx. destruct (Nat.eq_dec x (j - 1)) as [->|]; [lia|apply H2; lia].
    + intros x Hx. rewrite nth_upd. replace (j <? length s) with true by lia. rewrite andb_true_r. destruct (Nat.eqb_spec j x) as [->|].
      * replace (x <=? x - 1) with false by lia. rewrite H5 by lia. replace (x - 1 <=? x) with true by lia. reflexivity.
      * rewrite H5 by exact Hx. replace (x <=? j - 1) with (x <=? j) by lia. reflexivity.
    + intros x Hx. rewrite nth_upd. replace (j <? length c) with true by lia. rewrite andb_true_r. destruct (Nat.eqb_spec j x) as [->|].
      * replace (x <=? x - 1) with false by lia. rewrite H6 by lia. replace (x - 1 <=? x) with true by lia. reflexivity.
      * rewrite H6 by exact Hx. replace (x <=? j - 1) with (x <=? j) by lia. reflexivity.
  - split; [lia|]. split; [intros x Hx; replace x with (L - 1) by lia; exact HM|]. split; [exact LS|]. split; [exact LC|]. split; intros x Hx; replace (x <=? L - 1) with true by lia; reflexivity.
  - cbn. lia.
Qed.
Lemma slot_copy cw cand pos L e : rword e cw -> pos < L -> length cand = W * L ->
  exists cand', for_up 0 W (fun i candidate => c <- rd cw i ;; wr candidate (pos * W + i) c) cand = Ok cand' /\ length cand' = W * L /\ slot cand' pos e /\
    forall k e', k < L -> k <> pos -> slot cand k e' -> slot cand' k e'.
Proof.
  intros (LW & HR) Hpos LC. pose proof (osd_W_ge N) as HW.
  assert (IX : forall k i, k < L -> i < W -> k * W + i < W * L) by (intros k i Hk Hi; rewrite (Nat.mul_comm k); apply (index_lt W N); assumption).
  edestruct (for_up_inv (fun n c => length c = W * L /\ (forall i, i < n -> nth (pos * W + i) c 0%Z = nth i cw 0%Z) /\ forall k i, k < L -> k <> pos -> i < W -> nth (k * W + i) c 0%Z = nth (k * W + i) cand 0%Z)) as (c' & E & L' & H1 & H2).
  4: { exists c'. split; [exact E|]. split; [exact L'|]. split.
       - intros i Hi. rewrite H1 by lia. apply HR. exact Hi.
       - intros k e' Hk Hne HS i Hi. rewrite H2 by lia. apply HS. exact Hi. }
  - lia.
  - intros i c Hi (Lc & H1 & H2). cbv beta. rewrite (rd_nth cw i 0%Z) by lia. cbn [bind]. pose proof (IX pos i Hpos ltac:(lia)) as HL. rewrite wr_Ok by lia. eexists. split; [reflexivity|].
    split; [rewrite length_upd; exact Lc|]. split.
    + intros x Hx. rewrite nth_upd. replace (pos * W + i <? length c) with true by lia. rewrite andb_true_r. destruct (Nat.eqb_spec (pos * W + i) (pos * W + x)) as [EQ|]; [replace x with i by lia; reflexivity|]. apply H1. lia.
    + intros k x Hk Hne Hx. rewrite nth_upd. destruct (Nat.eqb_spec (pos * W + i) (k * W + x)) as [EQ|]; [|apply H2; assumption].
      exfalso. rewrite (Nat.mul_comm pos), (Nat.mul_comm k) in EQ. apply (index_inj W N HW) in EQ; lia.
  - split; [exact LC|]. split; [intros i Hi; lia|]. reflexivity.
Qed.
Lemma nth_insert {A} (l : list A) j a x d : j <= length l -> nth x (firstn j l ++ a :: skipn j l) d = if x <? j then nth x l d else if x =? j then a else nth (x - 1) l d.
Proof.
  intros Hj. assert (LF : length (firstn j l) = j) by (rewrite firstn_length; lia). destruct (Nat.ltb_spec x j) as [H|H].
  - rewrite app_nth1 by lia. apply nth_firstn. exact H.
  - rewrite app_nth2, LF by lia. destruct (Nat.eqb_spec x j) as [->|]; [rewrite Nat.sub_diag; reflexivity|]. replace (x - j) with (S (x - 1 - j)) by lia. cbn [nth]. rewrite nth_skipn. f_equal. lia.
Qed.
Lemma In_firstn {A} (x : A) l n : In x (firstn n l) -> In x l.
Proof. intros H. rewrite <- (firstn_skipn n l). apply in_or_app. left. exact H. Qed.
Lemma NoDup_firstn {A} (l : list A) n : NoDup l -> NoDup (firstn n l).
Proof.
  revert n; induction l as [|x l IH]; intros [|n] ND; cbn [firstn]; try constructor; inversion ND; subst; [|apply IH; assumption].
  intros H. apply In_firstn in H. contradiction.
Qed.
Lemma In_insert {A} (l : list A) j a x : In x (firstn j l ++ a :: skipn j l) <-> x = a \/ In x l.
Proof.
  rewrite in_app_iff. cbn [In]. rewrite <- (firstn_skipn j l) at 3. rewrite in_app_iff. intuition congruence.
Qed.
Lemma NoDup_insert {A} (l : list A) j a : NoDup l -> ~ In a l -> NoDup (firstn j l ++ a :: skipn j l).
Proof.
  intros ND NI. apply (Permutation_NoDup (l := a :: l)); [|constructor; assumption].
  rewrite <- (firstn_skipn j l) at 1. apply Permutation_middle.
Qed.
Lemma listed_update L e cw v x : 1 <= L -> rword e cw -> listed L v x -> exists x', osdl_update W L softperm (cw, x) = Ok (cw, x') /\ listed L (v ++ [e]) x'.
Proof.
  intros HL HR. destruct x as ((cand, score), cperm). intros (LC & LS & LP & PB & PI & (e0 & I0 & S0 & T0) & es & ND & HI & LE & HE & HD & HN' & HA).
  unfold osdl_update. rewrite (rword_metric e cw HR). cbn [bind]. rewrite (rd_nth score _ 0%Z) by lia. cbn [bind].
  assert (INV : incl es (v ++ [e])) by (apply incl_appl; exact HI).
  assert (NDV : NoDup (v ++ [e]) -> NoDup v /\ ~ In e v) by (intros H; apply NoDup_remove in H; rewrite app_nil_r in H; exact H).
  destruct (Z.leb_spec (corr e) (nth (L - 1) score 0%Z)) as [HM|HM].
  - exists (cand, score, cperm). split; [reflexivity|]. split; [exact LC|]. split; [exact LS|]. split; [exact LP|]. split; [exact PB|]. split; [exact PI|].
    split; [exists e0; split; [apply in_or_app; left; exact I0|]; split; assumption|]. exists es. split; [intros H; apply ND, NDV, H|].
    split; [exact INV|]. split; [exact LE|]. split; [exact HE|]. split; [exact HD|]. split; [exact HN'|].
    intros e' He H0. apply in_app_or in He. destruct He as [He|[<-|[]]]; [apply HA; assumption|].
    assert (length es = L). { destruct (Nat.eq_dec (length es) L); [assumption|]. specialize (HN' (L - 1) ltac:(lia)). lia. }
    right. split; [assumption|]. intros j Hj. destruct (HE (L - 1) ltac:(lia)) as (E1 & _). destruct (Nat.eq_dec j (L - 1)) as [->|]; [lia|]. specialize (HD j (L - 1) ltac:(lia)). lia.
  - rewrite (rd_nth cperm _ 0) by lia. cbn [bind]. set (pos := nth (L - 1) cperm 0) in *. assert (HP' : pos < L) by (apply PB; lia).
    destruct (slot_copy cw cand pos L e HR HP' LC) as (cand' & EC & LC' & SN & SO). rewrite EC. cbn [bind].
    destruct (shift_ok L (corr e) score cperm pos HL LS LP HM) as (j & s1 & c1 & s2 & c2 & EW & W1 & W2 & Hj & HJ1 & HJ2 & L1 & L2 & N1 & N2).
    rewrite EW. cbn [bind]. rewrite W1. cbn [bind]. rewrite W2. cbn [bind]. exists (cand', s2, c2). split; [reflexivity|].
    assert (NP : forall y, y < L - 1 -> nth y cperm 0 <> pos) by (intros y Hy E; apply PI in E; lia).
    assert (KEEP : forall y e', y < L - 1 -> slot cand (nth y cperm 0) e' -> slot cand' (nth y cperm 0) e').
    { intros y e' Hy HS. apply SO; [apply PB; lia|apply NP; exact Hy|exact HS]. }
    split; [exact LC'|]. split; [exact L1|]. split; [exact L2|]. split; [|split; [|split]].
    + intros i Hi. rewrite N2 by exact Hi. destruct (i <? j); [apply PB; exact Hi|]. destruct (i =? j); [exact HP'|apply PB; lia].
    + intros a b Ha Hb. rewrite !N2 by assumption. intros E.
      destruct (Nat.ltb_spec a j), (Nat.ltb_spec b j); [apply PI; assumption| | |].
      * destruct (Nat.eqb_spec b j); [exfalso; apply (NP a); [lia|exact E]|]. apply PI in E; lia.
      * destruct (Nat.eqb_spec a j); [exfalso; apply (NP b); [lia|congruence]|]. apply PI in E; lia.
      * destruct (Nat.eqb_spec a j), (Nat.eqb_spec b j); [lia|exfalso; apply (NP (b - 1)); [lia|congruence]|exfalso; apply (NP (a - 1)); [lia|congruence]|]. apply PI in E; lia.
    + rewrite N1, N2 by lia. destruct (Nat.ltb_spec 0 j) as [H|H].
      * exists e0. split; [apply in_or_app; left; exact I0|]. split; [exact S0|]. apply KEEP; [lia|exact T0].
      * replace (0 =? j) with true by lia. exists e. split; [apply in_or_app; right; left; reflexivity|]. split; [reflexivity|exact SN].
    + destruct (Z.ltb_spec (corr e) 0) as [H0|H0].
      * assert (LJ : length es <= j). { destruct (Nat.le_gt_cases (length es) j); [assumption|]. specialize (HJ2 j ltac:(lia)). destruct (HE j ltac:(lia)) as (E1 & _ & E2). lia. }
        exists es. split; [intros H; apply ND, NDV, H|]. split; [exact INV|]. split; [exact LE|]. split.
        { intros y Hy. destruct (HE y Hy) as (E1 & E2 & E3). rewrite N1, N2 by lia. replace (y <? j) with true by lia. split; [exact E1|]. split; [apply KEEP; [lia|exact E2]|exact E3]. }
        split; [exact HD|]. split.
        { intros y Hy. rewrite N1 by lia. destruct (Nat.ltb_spec y j); [apply HN'; lia|]. destruct (Nat.eqb_spec y j); [exact H0|]. apply HN'. lia. }
        intros e' He H0'. apply in_app_or in He. destruct He as [He|[<-|[]]]; [apply HA; assumption|lia].
      * assert (LJ : j <= length es). { destruct HJ1 as [->|HJ1]; [lia|]. destruct (Nat.le_gt_cases j (length es)); [assumption|]. specialize (HN' (j - 1) ltac:(lia)). lia. }
        set (ns := firstn j es ++ e :: skipn j es). assert (LN : length ns = S (length es)).
        { unfold ns. rewrite app_length. cbn [length]. rewrite firstn_length, skipn_length. lia. }
        exists (firstn L ns). assert (LF : length (firstn L ns) = min L (S (length es))) by (rewrite firstn_length, LN; reflexivity).
        assert (NF : forall y, y < length (firstn L ns) -> nth y (firstn L ns) [] = if y <? j then nth y es [] else if y =? j then e else nth (y - 1) es []).
        { intros y Hy. rewrite nth_firstn by lia. apply nth_insert. exact LJ. }
        assert (SJ : forall y, y < j -> (corr e <= corr (nth y es []))%Z).
        { intros y Hy. destruct HJ1 as [->|HJ1]; [lia|]. destruct (HE (j - 1) ltac:(lia)) as (E1 & _). destruct (Nat.eq_dec y (j - 1)) as [->|]; [lia|]. specialize (HD y (j - 1) ltac:(lia)). lia. }
        assert (SG : forall y, j <= y < length es -> (corr (nth y es []) < corr e)%Z).
        { intros y Hy. destruct (HE y ltac:(lia)) as (E1 & _). specialize (HJ2 y ltac:(lia)). lia. }
        split; [|split; [|split; [|split; [|split; [|split]]]]].
        { intros H. apply NDV in H. destruct H as (H1 & H2). apply NoDup_firstn, NoDup_insert; [apply ND; exact H1|]. intros H3. apply H2, HI, H3. }
        { intros y Hy. apply In_firstn in Hy. apply In_insert in Hy. destruct Hy as [->|Hy]; [apply in_or_app; right; left; reflexivity|apply INV; exact Hy]. }
        { rewrite LF. lia. }
        { intros y Hy. rewrite NF by exact Hy. rewrite LF in Hy. rewrite N1, N2 by lia. destruct (Nat.ltb_spec y j).
          - destruct (HE y ltac:(lia)) as (E1 & E2 & E3). split; [exact E1|]. split; [apply KEEP; [lia|exact E2]|exact E3].
          - destruct (Nat.eqb_spec y j); [split; [reflexivity|]; split; [exact SN|exact H0]|].
            destruct (HE (y - 1) ltac:(lia)) as (E1 & E2 & E3). split; [exact E1|]. split; [apply KEEP; [lia|exact E2]|exact E3]. }
        { intros a b (Hab & Hb). rewrite !NF by lia. rewrite LF in Hb. destruct (Nat.ltb_spec a j), (Nat.ltb_spec b j); [apply HD; lia| |lia|].
          - destruct (Nat.eqb_spec b j); [apply SJ; assumption|]. specialize (SJ a ltac:(lia)). specialize (SG (b - 1) ltac:(lia)). lia.
          - replace (b =? j) with false by lia. destruct (Nat.eqb_spec a j); [specialize (SG (b - 1) ltac:(lia)); lia|apply HD; lia]. }
        { intros y Hy. rewrite LF in Hy. rewrite N1 by lia. replace (y <? j) with false by lia. replace (y =? j) with false by lia. apply HN'. lia. }
        { intros e' He H0'.
          assert (CASE : length es = L -> forall y, y < L -> (corr (nth (L - 1) es []) <= corr (nth y (firstn L ns) []))%Z).
          { intros HF y Hy. rewrite NF by lia. destruct (Nat.ltb_spec y j); [destruct (Nat.eq_dec y (L - 1)) as [->|]; [lia|apply HD; lia]|]. destruct (Nat.eqb_spec y j); [specialize (SG (L - 1) ltac:(lia)); lia|]. apply HD. lia. }
          assert (IN : forall y, y < length es -> (In (nth y es []) (firstn L ns) \/ (y = L - 1 /\ length es = L))).
          { intros y Hy. destruct (Nat.ltb_spec y j).
            - left. replace (nth y es []) with (nth y (firstn L ns) []) by (rewrite NF by lia; replace (y <? j) with true by lia; reflexivity). apply nth_In. lia.
            - destruct (Nat.ltb_spec (S y) L) as [HS|HS]; [|right; lia]. left.
              replace (nth y es []) with (nth (S y) (firstn L ns) []); [apply nth_In; lia|]. rewrite NF by lia. replace (S y <? j) with false by lia. replace (S y =? j) with false by lia. f_equal. lia. }
          apply in_app_or in He. destruct He as [He|[<-|[]]].
          - destruct (HA e' He H0') as [HA'|(HF & HA')].
            + apply (In_nth _ _ []) in HA'. destruct HA' as (y & Hy & <-). destruct (IN y Hy) as [HX|(-> & HF)]; [left; exact HX|]. right. split; [lia|]. apply CASE. exact HF.
            + right. split; [lia|]. intros y Hy. specialize (HA' (L - 1) ltac:(lia)). specialize (CASE HF y Hy). lia.
          - left. replace e with (nth j (firstn L ns) []) at 1; [apply nth_In; lia|]. rewrite NF by lia. rewrite Nat.ltb_irrefl, Nat.eqb_refl. reflexivity. }
Qed.
Lemma list_search L d cand score cperm : 1 <= L -> length cand = W * L -> length score = L -> length cperm = L -> (forall i, i < W -> nth i cand 0%Z = nth i codeword 0%Z) ->
  osd_metric W codeword softperm = Ok (nth 0 score 0%Z) -> (forall i, 1 <= i < L -> nth i score 0%Z = (-1)%Z) -> (forall i, i < L -> nth i cperm 0 = i) ->
  exists cw' x', osd_search K (fun j '(codeword, x) => codeword <- osd_flip W G j codeword ;; Ok (codeword, x)) (osdl_update W L softperm) d 0 (codeword, (cand, score, cperm)) = Ok (cw', x') /\
    listed L (all_vis K d) x'.
Proof.
  intros HL LC LS LP HC HM HS HPm. pose proof rword_nil as HR. rewrite (rword_metric [] codeword HR) in HM. injection HM as HM. pose proof (osd_W_ge N) as HW.
  edestruct (search_ok (list Z) (list Z * list Z * list nat) K rword (fun j '(codeword, x) => codeword <- osd_flip W G j codeword ;; Ok (codeword, x)) (osdl_update W L softperm) (listed L)) with (d := d) (start := 0) (e := @nil nat) (cw := codeword) (v := [@nil nat]) (x := (cand, score, cperm)) as (cw' & x' & E & _ & HX).
  - intros e a cw x. apply flip_in.
  - intros e a cw x. apply flip_out.
  - intros e cw v x HRe HLs. apply listed_update; assumption.
  - lia.
  - exact HR.
  - assert (SL : slot cand (nth 0 cperm 0) []).
    { rewrite HPm by lia. intros i Hi. cbn [Nat.mul Nat.add]. rewrite HC by lia. apply HR. exact Hi. }
    split; [exact LC|]. split; [exact LS|]. split; [exact LP|]. split; [intros i Hi; rewrite HPm by exact Hi; exact Hi|]. split; [intros i j Hi Hj; rewrite !HPm by assumption; auto|].
    split; [exists []; split; [left; reflexivity|]; split; [congruence|exact SL]|].
    destruct (Z.ltb_spec (corr []) 0) as [H0|H0].
    + exists []. split; [intros; constructor|]. split; [intros y []|]. split; [cbn; lia|]. split; [cbn; intros; lia|]. split; [cbn; intros; lia|]. split.
      * cbn [length]. intros j Hj. destruct j as [|j]; [lia|]. rewrite HS by lia. lia.
      * intros e [<-|[]] H. lia.
    + exists [[]]. split; [intros; repeat constructor; intros []|]. split; [apply incl_refl|]. split; [cbn; lia|]. split; [|split; [|split]].
      * cbn [length]. intros j Hj. replace j with 0 by lia. cbn [nth]. split; [congruence|]. split; [exact SL|exact H0].
      * cbn. intros; lia.
      * cbn [length]. intros j Hj. rewrite HS by lia. lia.
      * intros e He _. left. exact He.
  - exists cw', x'. split; [exact E|exact HX].
Qed.
(** what the final state means *)
Lemma listed_means L d cand score cperm : listed L (all_vis K d) (cand, score, cperm) ->
  length cand = W * L /\ length score = L /\ length cperm = L /\ (forall i, i < L -> nth i cperm 0 < L) /\
  exists es, length es <= L /\ NoDup es /\
    (forall e, In e es -> pattern 0 K e /\ length e <= d) /\
    (exists e, pattern 0 K e /\ length e <= d /\ nth 0 score 0%Z = corr e /\ slot cand (nth 0 cperm 0) e) /\
    (forall j, j < length es -> nth j score 0%Z = corr (nth j es []) /\ slot cand (nth j cperm 0) (nth j es []) /\ (0 <= corr (nth j es []))%Z) /\
    (forall i j, i < j < length es -> (corr (nth j es []) <= corr (nth i es []))%Z) /\
    (forall c, in_code N K (entry N genmat) c -> flips soft basis c <= d -> (0 <= correlation N soft c)%Z ->
       (exists j, j < length es /\ forall i, i < N -> c i = cword (nth j es []) i) \/ (length es = L /\ forall j, j < L -> (correlation N soft c <= corr (nth j es []))%Z)).
Proof.
  intros (LC & LS & LP & PB & PI & (e0 & I0 & S0 & T0) & es & ND & HI & LE & HE & HD & HN' & HA).
  split; [exact LC|]. split; [exact LS|]. split; [exact LP|]. split; [exact PB|]. exists es. split; [exact LE|]. split; [apply ND, all_vis_NoDup|].
  split; [intros e He; apply all_vis_In, HI, He|]. split; [exists e0; apply all_vis_In in I0; destruct I0; auto|]. split; [exact HE|]. split; [exact HD|].
  intros c Hc Hf H0. pose proof (corr_pat c Hc) as EC. assert (IV : In (pat c) (all_vis K d)) by (apply all_vis_In; split; [apply pat_pattern|rewrite pat_flips; exact Hf]).
  destruct (HA (pat c) IV ltac:(lia)) as [H|(H & H')].
  - left. apply (In_nth _ _ []) in H. destruct H as (j & Hj & Ej). exists j. split; [exact Hj|]. intros i Hi. rewrite Ej. symmetry. apply cword_pat; assumption.
  - right. split; [exact H|]. intros j Hj. rewrite <- EC. apply H'. exact Hj.
Qed.
Lemma cword_distinct e e' : pattern 0 K e -> pattern 0 K e' -> (forall p, p < N -> cword e p = cword e' p) -> e = e'.
Proof. intros H H' E. rewrite <- (pat_cword e (cword e)) by auto. apply pat_cword; [exact H'|exact E]. Qed.
End Q.
