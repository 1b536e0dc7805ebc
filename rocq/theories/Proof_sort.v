(** Proofs about sort.hh. *)
From Coq Require Import ZifyBool ZifyNat Permutation Sorted.
From Verif Require Import Cpp Lib_list Model_sort Spec_sort.

(** ** Lists *)
Lemma upd_mid {A} (p q : list A) h v n : n = length p -> upd (p ++ h :: q) n v = p ++ v :: q.
Proof. intros ->. induction p as [|x p IH]; cbn; [reflexivity|]. rewrite IH. reflexivity. Qed.
Lemma rd_mid {A} (p q : list A) h n : n = length p -> rd (p ++ h :: q) n = Ok h.
Proof. intros ->. unfold rd. rewrite nth_error_app2, Nat.sub_diag by lia. reflexivity. Qed.
Lemma wr_mid {A} (p q : list A) h v n : n = length p -> wr (p ++ h :: q) n v = Ok (p ++ v :: q).
Proof. intros ->. rewrite wr_Ok, (upd_mid p q h v) by (rewrite ?app_length; cbn; lia). reflexivity. Qed.
Lemma rdu_mid {A} (p q : list (option A)) h n : n = length p -> rdu (p ++ Some h :: q) n = Ok h.
Proof. intros ->. unfold rdu. rewrite nth_error_app2, Nat.sub_diag by lia. reflexivity. Qed.

Lemma firstn_step {B} i (s : list B) t R : i <= length s -> s = firstn i s ++ t :: R -> firstn (S i) s = firstn i s ++ [t].
Proof.
  intros Hi H. assert (LP : length (firstn i s) = i) by (rewrite firstn_length; lia).
  revert H LP. generalize (firstn i s). intros P -> LP.
  rewrite firstn_app, LP. rewrite firstn_all2 by lia. replace (S i - i) with 1 by lia. reflexivity.
Qed.

Section Order.
Context {A : Type} (comp : A -> A -> bool).
Hypothesis SWO : strict_weak_order comp.

Lemma sw_irrefl x : comp x x = false. Proof. apply SWO. Qed.
Lemma sw_trans x y z : comp x y = true -> comp y z = true -> comp x z = true. Proof. apply SWO. Qed.
Lemma sw_asym x y : comp x y = true -> comp y x = false.
Proof.
  intros H. destruct (comp y x) eqn:E; [|reflexivity].
  pose proof (sw_trans x y x H E) as T. rewrite sw_irrefl in T. discriminate.
Qed.
Lemma sw_negtrans x y z : comp x y = false -> comp y z = false -> comp x z = false.
Proof.
  intros H1 H2. destruct (comp x z) eqn:E; [|reflexivity].
  destruct (comp y x) eqn:Y1.
  { pose proof (sw_trans y x z Y1 E). congruence. }
  destruct (comp z y) eqn:Y2.
  { pose proof (sw_trans x z y E Y2). congruence. }
  destruct SWO as (_ & _ & Q).
  assert (X : equiv comp x z = true).
  { apply (Q x y z); unfold equiv; rewrite ?H1, ?Y1, ?H2, ?Y2; reflexivity. }
  unfold equiv in X. rewrite E in X. discriminate.
Qed.
Lemma equiv_no z x y : comp x y = true -> equiv comp z x = true -> equiv comp z y = false.
Proof.
  unfold equiv. intros H E. apply andb_prop in E. destruct E as [E1 E2].
  apply negb_true_iff in E1, E2. destruct (comp z y) eqn:F1; [reflexivity|]. cbn [negb andb].
  pose proof (sw_negtrans x z y E2 F1). congruence.
Qed.

Definition le (x y : A) : Prop := comp y x = false.
Definition ssort (a b : list A) : Prop :=
  Permutation a b /\ StronglySorted le b /\ forall z, filter (equiv comp z) b = filter (equiv comp z) a.

Lemma SS_app (l1 l2 : list A) : StronglySorted le (l1 ++ l2) <->
  StronglySorted le l1 /\ StronglySorted le l2 /\ forall x y, In x l1 -> In y l2 -> le x y.
Proof.
  induction l1 as [|a l1 IH]; cbn [app].
  - split; [intros H; split; [constructor|]; split; [exact H|intros ? ? []]|intros (_ & H & _); exact H].
  - split.
    + intros H. inversion H; subst. apply IH in H2. destruct H2 as (S1 & S2 & S3).
      rewrite Forall_app in H3. destruct H3 as (F1 & F2). split; [constructor; assumption|]. split; [exact S2|].
      intros x y [<-|Hx] Hy; [rewrite Forall_forall in F2; apply F2; exact Hy|apply S3; assumption].
    + intros (S1 & S2 & S3). inversion S1; subst. constructor.
      * apply IH. split; [assumption|]. split; [assumption|]. intros x y Hx Hy. apply S3; [right|]; assumption.
      * apply Forall_app. split; [assumption|]. apply Forall_forall. intros y Hy. apply S3; [left; reflexivity|exact Hy].
Qed.

Lemma filter_none {B} (f : B -> bool) l : (forall x, In x l -> f x = false) -> filter f l = [].
Proof.
  induction l as [|x l IH]; intros H; cbn; [reflexivity|]. rewrite (H x) by (left; reflexivity).
  apply IH. intros y Hy. apply H. right. exact Hy.
Qed.

Lemma insert_ssort src t L1 L2 :
  ssort src (L1 ++ L2) -> Forall (fun x => comp t x = true) L2 ->
  (forall L1' x, L1 = L1' ++ [x] -> comp t x = false) ->
  ssort (src ++ [t]) (L1 ++ t :: L2).
Proof.
  intros (P & S & F) H2 H1. apply SS_app in S. destruct S as (S1 & S2 & S3).
  rewrite Forall_forall in H2.
  assert (K : forall x, In x L1 -> comp t x = false).
  { intros x Hx. destruct (exists_last (l := L1)) as (L1' & y & E); [intros ->; destruct Hx|].
    pose proof (H1 _ _ E) as Ty. subst L1. apply in_app_or in Hx. destruct Hx as [Hx|[<-|[]]]; [|exact Ty].
    apply SS_app in S1. destruct S1 as (_ & _ & S1). apply (sw_negtrans t y x Ty). apply S1; [exact Hx|left; reflexivity]. }
  split; [|split].
  - rewrite Permutation_app_comm. cbn [app]. rewrite P. apply Permutation_middle.
  - apply SS_app. split; [exact S1|]. split.
    + constructor; [exact S2|]. apply Forall_forall. intros x Hx. unfold le. apply sw_asym, H2, Hx.
    + intros x y Hx [<-|Hy]; [apply K; exact Hx|apply S3; assumption].
  - intros z. rewrite filter_app. cbn [filter]. rewrite (filter_app (equiv comp z) src). cbn [filter].
    rewrite <- F, filter_app. destruct (equiv comp z t) eqn:E.
    + rewrite (filter_none (equiv comp z) L2); [rewrite app_nil_r; reflexivity|].
      intros x Hx. apply (equiv_no z t x); [apply H2; exact Hx|exact E].
    + rewrite app_nil_r. reflexivity.
Qed.

Lemma ssort_nil : ssort [] []. Proof. split; [constructor|]. split; [constructor|reflexivity]. Qed.

Lemma ssort_spec a b : ssort a b -> stably_sorted comp a b.
Proof.
  intros (P & S & F). split; [exact P|]. split; [|exact F].
  clear P F. induction S as [|x l S IH H]; intros i j u v Hij Hu Hv; [destruct i; discriminate|].
  destruct j as [|j]; [lia|]. cbn in Hv. destruct i as [|i]; cbn in Hu.
  - injection Hu as <-. rewrite Forall_forall in H. apply (H v). apply nth_error_In with j. exact Hv.
  - apply (IH i j); auto. lia.
Qed.

(** ** insertion_sort *)
Lemma insertion_inner_ok pre L h R t :
  exists L1 L2 h', L = L1 ++ L2 /\ Forall (fun x => comp t x = true) L2 /\
    (forall L1' x, L1 = L1' ++ [x] -> comp t x = false) /\
    insertion_inner comp (length pre) (length L) t (pre ++ L ++ h :: R) = Ok (length L1, pre ++ L1 ++ h' :: L2 ++ R).
Proof.
  unfold insertion_inner.
  edestruct (while_inv (fun '(j, a) => exists L1 L2 h', L = L1 ++ L2 /\ j = length L1 /\
       Forall (fun x => comp t x = true) L2 /\ a = pre ++ L1 ++ h' :: L2 ++ R) (fun '(j, _) => j))
    as ((j & a) & E & (L1 & L2 & h' & EL & -> & FL & ->) & C).
  4: { exists L1, L2, h'. split; [exact EL|]. split; [exact FL|]. split; [|exact E].
       intros L1' x ->. rewrite app_length in C. cbn [length] in C.
       destruct (Nat.ltb_spec 0 (length L1' + 1)); [|lia].
       rewrite (app_assoc pre), (app_assoc pre), <- (app_assoc (pre ++ L1')) in C. cbn [app] in C.
       rewrite rd_mid in C by (rewrite app_length; lia). cbn [bind] in C. injection C as C. exact C. }
  - intros (j & a) (L1 & L2 & h' & EL & -> & FL & ->). destruct (Nat.ltb_spec 0 (length L1)) as [H0|H0].
    + destruct (exists_last (l := L1)) as (L1' & x & E1); [intros ->; cbn in H0; lia|]. subst L1.
      rewrite app_length. cbn [length].
      assert (RD : rd (pre ++ (L1' ++ [x]) ++ h' :: L2 ++ R) (length pre + (length L1' + 1 - 1)) = Ok x).
      { rewrite !app_assoc. rewrite <- (app_assoc _ [x]). cbn [app]. apply rd_mid. rewrite app_length. lia. }
      rewrite RD. cbn [bind]. eexists. split; [reflexivity|]. intros Hc.
      assert (WR : wr (pre ++ (L1' ++ [x]) ++ h' :: L2 ++ R) (length pre + (length L1' + 1)) x =
                   Ok (pre ++ L1' ++ x :: (x :: L2) ++ R)).
      { rewrite app_assoc. rewrite wr_mid by (rewrite !app_length; cbn [length]; lia).
        f_equal. rewrite <- !app_assoc. reflexivity. }
      rewrite WR. cbn [bind]. eexists. split; [reflexivity|]. split.
      * exists L1', (x :: L2), x. split; [rewrite EL, <- app_assoc; reflexivity|]. split; [lia|].
        split; [constructor; assumption|reflexivity].
      * lia.
    + eexists. split; [reflexivity|]. discriminate.
  - exists L, [], h. rewrite app_nil_r. split; [reflexivity|]. split; [reflexivity|]. split; [constructor|reflexivity].
  - cbv beta iota. lia.
Qed.

Lemma insertion_sort_ok pre s post :
  exists s', insertion_sort comp (length pre) (length s) (pre ++ s ++ post) = Ok (pre ++ s' ++ post) /\ ssort s s'.
Proof.
  unfold insertion_sort.
  destruct (Nat.le_gt_cases (length s) 1) as [Hs|Hs].
  { rewrite for_up_nil by lia. exists s. split; [reflexivity|].
    destruct s as [|x [|y s]]; [apply ssort_nil| |cbn in Hs; lia].
    apply (insert_ssort [] x [] []); [apply ssort_nil|constructor|]. intros [|? ?] ?; discriminate. }
  edestruct (for_up_inv (fun i a => exists L R, length L = i /\ s = firstn i s ++ R /\ a = pre ++ L ++ R ++ post /\
     ssort (firstn i s) L)) as (a & E & (L & R & HL & HR & -> & HS)).
  4: { rewrite firstn_all in HR, HS. assert (R = []) by (destruct R; [reflexivity|apply (f_equal (@length A)) in HR; rewrite app_length in HR; cbn in HR; lia]).
       subst R. exists L. split; [exact E|exact HS]. }
  - lia.
  - intros i a Hi (L & R & HL & HR & -> & HS).
    destruct R as [|t R]; [apply (f_equal (@length A)) in HR; rewrite app_nil_r, firstn_length in HR; lia|].
    assert (F1 : firstn (S i) s = firstn i s ++ [t]).
    { apply (firstn_step i s t R); [lia|exact HR]. }
    assert (RD : rd (pre ++ L ++ (t :: R) ++ post) (length pre + i) = Ok t).
    { rewrite app_assoc. cbn [app]. apply rd_mid. rewrite app_length. lia. }
    rewrite RD. cbn [bind]. rewrite <- HL. cbn [app].
    destruct (insertion_inner_ok pre L t (R ++ post) t) as (L1 & L2 & h' & EL & FL & LL & EI).
    rewrite EI. cbn [bind]. rewrite app_assoc, wr_mid by (rewrite app_length; reflexivity).
    eexists. split; [reflexivity|]. exists (L1 ++ t :: L2), R. subst L. rewrite HL.
    split; [rewrite app_length in *; cbn [length]; lia|]. split; [rewrite F1, <- app_assoc; exact HR|].
    split; [rewrite <- !app_assoc; reflexivity|].
    rewrite F1. apply insert_ssort; assumption.
  - destruct s as [|x s']; [cbn in Hs; lia|]. exists [x], s'. split; [reflexivity|]. split; [reflexivity|]. split; [reflexivity|].
    apply (insert_ssort [] x [] []); [apply ssort_nil|constructor|]. intros [|? ?] ?; discriminate.
Qed.

(** ** merge *)
Fixpoint lmerge (l1 : list A) : list A -> list A :=
  fix aux l2 :=
    match l1, l2 with
    | [], _ => l2
    | _, [] => l1
    | x :: l1', y :: l2' => if comp y x then y :: aux l2' else x :: lmerge l1' l2
    end.
Lemma lmerge_nil_r l : lmerge l [] = l. Proof. destruct l; reflexivity. Qed.
Lemma lmerge_cons x l1 y l2 : lmerge (x :: l1) (y :: l2) = if comp y x then y :: lmerge (x :: l1) l2 else x :: lmerge l1 (y :: l2).
Proof. reflexivity. Qed.
Lemma lmerge_length l1 l2 : length (lmerge l1 l2) = length l1 + length l2.
Proof.
  revert l2; induction l1 as [|x l1 IH]; intros l2; [destruct l2; reflexivity|].
  induction l2 as [|y l2 IH2]; [cbn; lia|]. rewrite lmerge_cons. destruct (comp y x); cbn [length].
  - rewrite IH2. cbn [length]. lia.
  - rewrite IH. cbn [length]. lia.
Qed.
Lemma lmerge_perm l1 l2 : Permutation (l1 ++ l2) (lmerge l1 l2).
Proof.
  revert l2; induction l1 as [|x l1 IH]; intros l2; [destruct l2; apply Permutation_refl|].
  induction l2 as [|y l2 IH2]; [rewrite app_nil_r; apply Permutation_refl|]. rewrite lmerge_cons. destruct (comp y x).
  - rewrite <- IH2. apply Permutation_sym, Permutation_middle.
  - cbn [app]. constructor. apply IH.
Qed.
Lemma lmerge_sorted l1 l2 : StronglySorted le l1 -> StronglySorted le l2 -> StronglySorted le (lmerge l1 l2).
Proof.
  revert l2; induction l1 as [|x l1 IH]; intros l2 S1 S2; [destruct l2; exact S2|].
  induction l2 as [|y l2 IH2]; [exact S1|]. rewrite lmerge_cons. destruct (comp y x) eqn:C.
  - constructor.
    + apply IH2. inversion S2; assumption.
    + apply (Permutation_Forall (lmerge_perm _ _)). inversion S1; subst. inversion S2; subst.
      apply Forall_app. split; [|assumption]. constructor; [apply sw_asym; exact C|].
      apply Forall_forall. intros u Hu. rewrite Forall_forall in H2. unfold le.
      apply (sw_negtrans u x y); [apply H2; exact Hu|apply sw_asym; exact C].
  - constructor.
    + apply IH; [inversion S1; assumption|exact S2].
    + apply (Permutation_Forall (lmerge_perm _ _)). inversion S1; subst. inversion S2; subst.
      apply Forall_app. split; [assumption|]. constructor; [exact C|].
      apply Forall_forall. intros u Hu. rewrite Forall_forall in H4. unfold le.
      apply (sw_negtrans u y x); [apply H4; exact Hu|exact C].
Qed.
Lemma lmerge_filter z l1 l2 : StronglySorted le l1 ->
  filter (equiv comp z) (lmerge l1 l2) = filter (equiv comp z) l1 ++ filter (equiv comp z) l2.
Proof.
  revert l2; induction l1 as [|x l1 IH]; intros l2 S1; [destruct l2; reflexivity|].
  induction l2 as [|y l2 IH2]; [rewrite lmerge_nil_r, app_nil_r; reflexivity|]. rewrite lmerge_cons. destruct (comp y x) eqn:C.
  - cbn [filter] in IH2 |- *. rewrite IH2. destruct (equiv comp z y) eqn:E; [|reflexivity].
    assert (NX : forall u, In u (x :: l1) -> equiv comp z u = false).
    { intros u Hu. apply (equiv_no z y u); [|exact E].
      destruct Hu as [<-|Hu]; [exact C|]. inversion S1; subst. rewrite Forall_forall in H2. pose proof (H2 u Hu) as W.
      unfold le in W. destruct (comp y u) eqn:Y; [reflexivity|]. pose proof (sw_negtrans y u x Y W). congruence. }
    pose proof (filter_none (equiv comp z) (x :: l1) NX) as N. cbn [filter] in N.
    destruct (equiv comp z x); [discriminate|]. rewrite N. reflexivity.
  - cbn [filter]. rewrite IH by (inversion S1; assumption). cbn [filter].
    destruct (equiv comp z x); reflexivity.
Qed.
Lemma lmerge_ssort a1 a2 l1 l2 : ssort a1 l1 -> ssort a2 l2 -> ssort (a1 ++ a2) (lmerge l1 l2).
Proof.
  intros (P1 & S1 & F1) (P2 & S2 & F2). split; [|split].
  - rewrite P1, P2. apply lmerge_perm.
  - apply lmerge_sorted; assumption.
  - intros z. rewrite lmerge_filter by exact S1. rewrite F1, F2, filter_app. reflexivity.
Qed.
End Order.

Definition seg {A} (s k : nat) (l : list A) : list A := firstn k (skipn s l).
Lemma seg_cons {A} s k (l : list A) d : s < length l -> 0 < k -> seg s k l = nth s l d :: seg (S s) (k - 1) l.
Proof.
  intros Hs Hk. unfold seg. destruct k as [|k]; [lia|]. replace (S k - 1) with k by lia.
  revert l Hs. induction s as [|s IH]; intros [|x l] Hs; cbn in Hs; try lia; [reflexivity|].
  cbn [skipn nth]. rewrite IH by lia. reflexivity.
Qed.
Lemma seg_app {A} s k1 k2 (l : list A) : seg s (k1 + k2) l = seg s k1 l ++ seg (s + k1) k2 l.
Proof.
  unfold seg. rewrite (Nat.add_comm s k1), <- skipn_skipn'. set (m := skipn s l). clearbody m. clear.
  revert m; induction k1 as [|k1 IH]; intros m; [reflexivity|]. destruct m as [|x m]; cbn; [rewrite !firstn_nil; reflexivity|].
  f_equal. apply IH.
Qed.
Lemma length_seg {A} s k (l : list A) : length (seg s k l) = Nat.min k (length l - s).
Proof. unfold seg. rewrite firstn_length, skipn_length. reflexivity. Qed.
Lemma seg_clip {A} s k n (l : list A) : length l = n -> seg s (Nat.min (s + k) n - s) l = seg s k l.
Proof.
  intros <-. unfold seg.
  destruct (Nat.le_gt_cases (s + k) (length l)).
  - replace (Nat.min (s + k) (length l) - s) with k by lia. reflexivity.
  - rewrite !firstn_all2; rewrite ?skipn_length; try lia; reflexivity.
Qed.
Lemma nth_error_seg {A} s k (l : list A) i : nth_error (seg s k l) i = if i <? k then nth_error l (s + i) else None.
Proof. unfold seg. rewrite nth_error_firstn', nth_error_skipn'. reflexivity. Qed.

(** merge writes the merged run and nothing else *)
Lemma merge_ok {A} (comp : A -> A -> bool) (a : list A) n left l (tmp : list (option A)) :
  n <= length a -> n <= length tmp -> left < n ->
  exists tmp', merge comp a n left (left + l) (left + 2 * l) tmp = Ok tmp' /\ length tmp' = length tmp /\
    (forall x, x < left -> nth x tmp' None = nth x tmp None) /\
    (forall x, left <= x < Nat.min (left + 2 * l) n ->
       nth x tmp' None = nth_error (lmerge comp (seg left l (firstn n a)) (seg (left + l) l (firstn n a))) (x - left)).
Proof.
  intros Ha Ht Hl. destruct a as [|d a0] eqn:Ea; [cbn in Ha; lia|]. rewrite <- Ea in *. clear Ea.
  unfold merge.
  set (right := if n <? left + l then n else left + l). set (fin := if n <? left + 2 * l then n else left + 2 * l).
  assert (Hr : right = Nat.min (left + l) n) by (unfold right; destruct (Nat.ltb_spec n (left + l)); lia).
  assert (Hf : fin = Nat.min (left + 2 * l) n) by (unfold fin; destruct (Nat.ltb_spec n (left + 2 * l)); lia).
  clearbody right fin. cbv zeta.
  set (A0 := firstn n a). assert (LA : length A0 = n) by (unfold A0; rewrite firstn_length; lia).
  assert (S1 : seg left l A0 = seg left (right - left) A0) by (rewrite Hr; symmetry; apply seg_clip; exact LA).
  assert (S2 : seg (left + l) l A0 = seg right (fin - right) A0).
  { destruct (Nat.le_gt_cases (left + l) n).
    - replace right with (left + l) by lia. rewrite Hf. replace (left + 2 * l) with (left + l + l) by lia. symmetry. apply seg_clip. exact LA.
    - replace (fin - right) with 0 by lia. unfold seg. rewrite skipn_all2 by lia. rewrite firstn_nil. reflexivity. }
  rewrite S1, S2. set (ML := lmerge comp (seg left (right - left) A0) (seg right (fin - right) A0)).
  assert (NA : forall x, x < n -> nth x A0 d = nth x a d).
  { intros x Hx. unfold A0. rewrite <- (firstn_skipn n a) at 2. rewrite app_nth1 by (rewrite firstn_length; lia). reflexivity. }
  edestruct (for_up_inv (fun k '(i, j, t) => left <= i <= right /\ right <= j <= fin /\ k = i + j - right /\
     length t = length tmp /\ (forall x, x < left -> nth x t None = nth x tmp None) /\
     (forall x, left <= x < k -> nth x t None = nth_error ML (x - left)) /\
     skipn (k - left) ML = lmerge comp (seg i (right - i) A0) (seg j (fin - j) A0))) as (((i & j) & t) & E & (I1 & I2 & I3 & I4 & I5 & I6 & I7)).
  4: { rewrite E. cbn [bind]. exists t. split; [reflexivity|]. split; [exact I4|]. split; [exact I5|]. rewrite <- Hf. exact I6. }
  - lia.
  - intros k ((i & j) & t) Hk (I1 & I2 & I3 & I4 & I5 & I6 & I7).
    assert (STEP : forall v i' j', skipn (k - left) ML = v :: lmerge comp (seg i' (right - i') A0) (seg j' (fin - j') A0) ->
        S k = i' + j' - right -> left <= i' <= right -> right <= j' <= fin ->
        (left <= i' <= right /\ right <= j' <= fin /\ S k = i' + j' - right /\
         length (upd t k (Some v)) = length tmp /\ (forall x, x < left -> nth x (upd t k (Some v)) None = nth x tmp None) /\
         (forall x, left <= x < S k -> nth x (upd t k (Some v)) None = nth_error ML (x - left)) /\
         skipn (S k - left) ML = lmerge comp (seg i' (right - i') A0) (seg j' (fin - j') A0))).
    { intros v i' j' HS K1 K2 K3. split; [exact K2|]. split; [exact K3|]. split; [exact K1|].
      rewrite length_upd. split; [exact I4|]. split; [|split].
      - intros x Hx. rewrite nth_upd. destruct (Nat.eqb_spec k x); [lia|]. apply I5. exact Hx.
      - intros x Hx. rewrite nth_upd. destruct (Nat.eqb_spec k x) as [->|].
        + destruct (Nat.ltb_spec x (length t)); [|lia]. cbn [andb].
          pose proof (nth_error_skipn' (x - left) 0 ML) as N. rewrite HS, Nat.add_0_r in N. exact N.
        + cbn [andb]. apply I6. lia.
      - replace (S k - left) with (1 + (k - left)) by lia. rewrite <- skipn_skipn', HS. reflexivity. }
    destruct (Nat.leb_spec right i) as [Ri|Ri].
    + (* left run exhausted *)
      assert (i = right) by lia. subst i. cbn [bind].
      rewrite (rd_nth a j d) by lia. cbn [bind]. unfold wru. rewrite wr_Ok by lia. cbn [bind].
      eexists. split; [reflexivity|]. cbv beta iota. apply STEP; try lia.
      rewrite I7. replace (right - right) with 0 by lia.
      rewrite (seg_cons j (fin - j) A0 d) by lia. replace (fin - j - 1) with (fin - S j) by lia.
      rewrite NA by lia. unfold seg at 1 3. cbn [firstn]. destruct (seg (S j) (fin - S j) A0); reflexivity.
    + destruct (Nat.ltb_spec j fin) as [Jf|Jf].
      * rewrite (rd_nth a j d) by lia. cbn [bind]. rewrite (rd_nth a i d) by lia. cbn [bind].
        rewrite (seg_cons i (right - i) A0 d), (seg_cons j (fin - j) A0 d), lmerge_cons, !NA in I7 by lia.
        destruct (comp (nth j a d) (nth i a d)).
        -- unfold wru. rewrite wr_Ok by lia. cbn [bind]. eexists. split; [reflexivity|]. cbv beta iota. apply STEP; try lia.
           rewrite I7. f_equal. rewrite (seg_cons i (right - i) A0 d), NA by lia. f_equal. f_equal. lia.
        -- unfold wru. rewrite wr_Ok by lia. cbn [bind]. eexists. split; [reflexivity|]. cbv beta iota. apply STEP; try lia.
           rewrite I7. f_equal. rewrite (seg_cons j (fin - j) A0 d), NA by lia. f_equal. f_equal. lia.
      * cbn [bind]. rewrite (rd_nth a i d) by lia. cbn [bind]. unfold wru. rewrite wr_Ok by lia. cbn [bind].
        eexists. split; [reflexivity|]. cbv beta iota. apply STEP; try lia.
        rewrite I7. replace (fin - j) with 0 by lia. unfold seg at 2 4. cbn [firstn]. rewrite !lmerge_nil_r.
        rewrite (seg_cons i (right - i) A0 d), NA by lia. f_equal. f_equal. lia.
  - split; [lia|]. split; [lia|]. split; [lia|]. split; [reflexivity|]. split; [reflexivity|]. split; [intros; lia|].
    rewrite Nat.sub_diag. reflexivity.
Qed.

Lemma for_step_gen {S} (I : nat -> S -> Prop) (body : nat -> S -> res S) n step s :
  0 < step ->
  (forall k s, k * step < n -> I k s -> exists s', body (k * step) s = Ok s' /\ I (Datatypes.S k) s') ->
  I 0 s -> exists s' c, for_step 0 n step body s = Ok s' /\ I c s' /\ n <= c * step.
Proof.
  intros Hs Hb Hi. unfold for_step. rewrite Nat.sub_0_r.
  set (cnt := (n + (step - 1)) / step).
  pose proof (Nat.div_mod (n + (step - 1)) step ltac:(lia)) as D.
  pose proof (Nat.mod_upper_bound (n + (step - 1)) step ltac:(lia)) as M. fold cnt in D.
  destruct (@loop_inv S I (fun k => body (0 + k * step)) cnt 0 s) as (s' & E & I').
  - intros j t Hj. apply Hb. nia.
  - exact Hi.
  - exists s', cnt. split; [exact E|]. split; [exact I'|]. nia.
Qed.

Section MergeSort.
Context {A : Type} (comp : A -> A -> bool).
Hypothesis SWO : strict_weak_order comp.

(** all blocks of length l of [a] are stably sorted versions of those of [s] *)
Definition blocks (l : nat) (s a : list A) : Prop := forall c, ssort comp (seg (c * l) l s) (seg (c * l) l a).

Lemma seg_beyond s k (l : list A) : length l <= s -> seg s k l = [].
Proof. intros H. unfold seg. rewrite skipn_all2 by exact H. apply firstn_nil. Qed.

Lemma app_cut (x y : list A) n : n = length x -> firstn n (x ++ y) = x /\ skipn n (x ++ y) = y.
Proof.
  intros ->. split.
  - rewrite firstn_app, Nat.sub_diag, firstn_all. cbn [firstn]. apply app_nil_r.
  - rewrite skipn_app, skipn_all, Nat.sub_diag. reflexivity.
Qed.

Lemma first_pass M n (a : list A) : 0 < M -> n <= length a -> (Z.of_nat (n + M) <= 2147483647)%Z ->
  exists a', for_step 0 n M (fun i a =>
     require (int_max_ok (i + M)) ;;;
     insertion_sort comp i (if n <? i + M then n - i else M) a) a = Ok a' /\
    length a' = length a /\ skipn n a' = skipn n a /\ blocks M (firstn n a) (firstn n a').
Proof.
  intros HM Hn HI.
  edestruct (for_step_gen (fun k b => length b = length a /\ skipn (Nat.min (k * M) n) b = skipn (Nat.min (k * M) n) a /\
     forall c, c < k -> ssort comp (seg (c * M) M (firstn n a)) (seg (c * M) M (firstn n b)))) as (b & k & E & (L & T & B) & K).
  4: { exists b. split; [exact E|]. split; [exact L|]. split.
       - rewrite Nat.min_r in T by lia. exact T.
       - intros c. destruct (Nat.lt_ge_cases c k); [apply B; assumption|].
         assert (n <= c * M) by nia.
         rewrite !seg_beyond by (rewrite firstn_length; lia). apply ssort_nil. }
  - exact HM.
  - intros k b Hk (L & T & B).
    replace (int_max_ok (k * M + M)) with true by (unfold int_max_ok; symmetry; apply Z.leb_le; lia). cbn [require bind].
    set (m := if n <? k * M + M then n - k * M else M).
    assert (Hm : m = Nat.min (k * M + M) n - k * M) by (unfold m; destruct (Nat.ltb_spec n (k * M + M)); lia).
    clearbody m. rewrite Nat.min_l in T by lia.
    set (pre := firstn (k * M) b). set (s := seg (k * M) m b). set (post := skipn (k * M + m) b).
    assert (Eb : b = pre ++ s ++ post).
    { unfold pre, s, post, seg. rewrite Nat.add_comm, <- skipn_skipn'. rewrite firstn_skipn, firstn_skipn. reflexivity. }
    assert (Lp : length pre = k * M) by (unfold pre; rewrite firstn_length; lia).
    assert (Ls : length s = m) by (unfold s; rewrite length_seg; lia).
    destruct (insertion_sort_ok comp SWO pre s post) as (s' & E1 & S1). rewrite Lp, Ls, <- Eb in E1. rewrite E1.
    assert (Ls' : length s' = m) by (rewrite <- Ls; symmetry; apply Permutation_length, S1).
    eexists. split; [reflexivity|]. split; [rewrite <- L, Eb, !app_length; lia|].
    assert (Hmin : Nat.min (S k * M) n = k * M + m) by lia.
    assert (Tail : skipn (k * M + m) (pre ++ s' ++ post) = post).
    { rewrite app_assoc. apply app_cut. rewrite app_length. lia. }
    split.
    + rewrite Hmin, Tail. unfold post. rewrite Nat.add_comm, <- !skipn_skipn', T. reflexivity.
    + intros c Hc. destruct (Nat.eq_dec c k) as [->|Nc].
      * assert (Q1 : seg (k * M) M (firstn n (pre ++ s' ++ post)) = s').
        { rewrite <- (seg_clip (k * M) M n) by (rewrite firstn_length, !app_length; unfold post; rewrite skipn_length; lia).
          rewrite <- Hm. apply nth_error_ext'.
          - rewrite length_seg, firstn_length, !app_length. unfold post. rewrite skipn_length. lia.
          - intros x Hx. rewrite length_seg, firstn_length, !app_length in Hx.
            rewrite nth_error_seg. destruct (Nat.ltb_spec x m); [|lia]. rewrite nth_error_firstn'.
            destruct (Nat.ltb_spec (k * M + x) n); [|lia]. rewrite nth_error_app2 by lia.
            rewrite nth_error_app1 by lia. f_equal. lia. }
        assert (Q2 : seg (k * M) M (firstn n a) = s).
        { rewrite <- (seg_clip (k * M) M n) by (rewrite firstn_length; lia). rewrite <- Hm.
          unfold s. apply nth_error_ext'.
          - rewrite !length_seg, firstn_length. lia.
          - intros x Hx. rewrite length_seg in Hx. rewrite !nth_error_seg. destruct (Nat.ltb_spec x m); [|reflexivity].
            rewrite nth_error_firstn'. destruct (Nat.ltb_spec (k * M + x) n); [|lia].
            rewrite <- !nth_error_skipn', T. reflexivity. }
        rewrite Q1, Q2. exact S1.
      * assert (Q : seg (c * M) M (firstn n (pre ++ s' ++ post)) = seg (c * M) M (firstn n b)).
        { apply nth_error_ext'; [rewrite !length_seg, !firstn_length, Eb, !app_length; lia|].
          intros x Hx. rewrite length_seg in Hx. rewrite !nth_error_seg. destruct (Nat.ltb_spec x M); [|reflexivity].
          rewrite !nth_error_firstn'. destruct (Nat.ltb_spec (c * M + x) n); [|reflexivity].
          rewrite Eb, !nth_error_app1 by nia. reflexivity. }
        rewrite Q. apply B. lia.
  - split; [reflexivity|]. split; [reflexivity|]. intros; lia.
Qed.

Lemma copy_back n (tmp : list (option A)) (a : list A) (v : list A) :
  n <= length a -> length v = n -> (forall x, x < n -> nth x tmp None = nth_error v x) ->
  for_up 0 n (fun i a => x <- rdu tmp i ;; wr a i x) a = Ok (v ++ skipn n a).
Proof.
  intros Ha Hv Ht.
  edestruct (for_up_inv (fun i b => b = firstn i v ++ skipn i a)) as (b & E & ->).
  4: { rewrite E, firstn_all2 by lia. reflexivity. }
  - lia.
  - intros i b Hi ->. destruct (nth_error v i) as [x|] eqn:Ex; [|apply nth_error_None in Ex; lia].
    rewrite (rdu_nth tmp i x) by (rewrite Ht by lia; exact Ex). cbn [bind].
    destruct (skipn i a) as [|h q] eqn:Es; [apply (f_equal (@length A)) in Es; rewrite skipn_length in Es; cbn in Es; lia|].
    rewrite wr_mid by (rewrite firstn_length; lia). eexists. split; [reflexivity|].
    replace (skipn (S i) a) with q.
    + apply nth_error_split in Ex. destruct Ex as (l1 & l2 & -> & Hl1). subst i.
      rewrite !firstn_app. rewrite Nat.sub_diag, firstn_all. replace (S (length l1) - length l1) with 1 by lia.
      rewrite (firstn_all2 l1) by lia. cbn [firstn]. rewrite app_nil_r, <- app_assoc. reflexivity.
    + change (S i) with (1 + i). rewrite <- skipn_skipn', Es. reflexivity.
  - reflexivity.
Qed.

Lemma merge_pass l n s (tmp : list (option A)) a : 0 < l -> l < n -> n <= length a -> n <= length tmp ->
  (Z.of_nat (3 * n) <= 2147483647)%Z -> length s = n -> blocks l s (firstn n a) ->
  exists tmp' v, for_step 0 n (2 * l) (fun i tmp =>
           require (int_max_ok (i + 2 * l)) ;;;
           merge comp a n i (i + l) (i + 2 * l) tmp) tmp = Ok tmp' /\ length tmp' = length tmp /\ length v = n /\
    (forall x, x < n -> nth x tmp' None = nth_error v x) /\ blocks (2 * l) s v.
Proof.
  intros Hl Hln Ha Ht HI Hs HB.
  set (A0 := firstn n a) in *. assert (LA : length A0 = n) by (unfold A0; rewrite firstn_length; lia).
  set (bl := fun k => lmerge comp (seg (k * (2 * l)) l A0) (seg (k * (2 * l) + l) l A0)).
  assert (BLs : forall k, ssort comp (seg (k * (2 * l)) (2 * l) s) (bl k)).
  { intros k. unfold bl. replace (2 * l) with (l + l) at 2 by lia. rewrite seg_app.
    pose proof (HB (2 * k)) as H1. pose proof (HB (2 * k + 1)) as H2.
    replace (2 * k * l) with (k * (2 * l)) in H1 by lia. replace ((2 * k + 1) * l) with (k * (2 * l) + l) in H2 by lia.
    apply lmerge_ssort; assumption. }
  assert (BLl : forall k, length (bl k) = Nat.min (2 * l) (n - k * (2 * l))).
  { intros k. rewrite <- (Permutation_length (proj1 (BLs k))), length_seg, Hs. reflexivity. }
  edestruct (for_step_gen (fun k t => length t = length tmp /\
     forall c x, c < k -> c * (2 * l) <= x < Nat.min (c * (2 * l) + 2 * l) n -> nth x t None = nth_error (bl c) (x - c * (2 * l))))
     as (t & k & E & (L & B) & K).
  4: { exists t.
       (* assemble v *)
       set (v := flat_map bl (seq 0 k)).
       assert (V : forall m, m <= k -> length (flat_map bl (seq 0 m)) = Nat.min (m * (2 * l)) n).
       { induction m as [|m IH]; intros Hm; [reflexivity|].
         replace (S m) with (m + 1) at 1 by lia. rewrite seq_app, flat_map_app, app_length, IH by lia. cbn [seq flat_map Nat.add].
         rewrite app_nil_r, BLl. lia. }
       assert (VN : forall m x c, m <= k -> c < m -> c * (2 * l) <= x < Nat.min (c * (2 * l) + 2 * l) n ->
          nth_error (flat_map bl (seq 0 m)) x = nth_error (bl c) (x - c * (2 * l))).
       { induction m as [|m IH]; intros x c Hm Hc Hx; [lia|].
         replace (S m) with (m + 1) by lia. rewrite seq_app, flat_map_app. cbn [seq flat_map Nat.add]. rewrite app_nil_r.
         destruct (Nat.eq_dec c m) as [->|Nc].
         - rewrite nth_error_app2 by (rewrite V by lia; lia). rewrite V by lia. f_equal. lia.
         - rewrite nth_error_app1 by (rewrite V by lia; nia). apply IH; lia. }
       exists v. split; [exact E|]. split; [exact L|]. split; [unfold v; rewrite V by lia; lia|]. split.
       - intros x Hx. pose proof (Nat.div_mod x (2 * l) ltac:(lia)) as D. pose proof (Nat.mod_upper_bound x (2 * l) ltac:(lia)).
         set (c := x / (2 * l)) in *. assert (c < k) by nia.
         rewrite (B c x) by nia. unfold v. rewrite (VN k x c) by nia. reflexivity.
       - intros c. destruct (Nat.lt_ge_cases (c * (2 * l)) n) as [Hc|Hc].
         + assert (c < k) by nia. replace (seg (c * (2 * l)) (2 * l) v) with (bl c); [apply BLs|].
           apply nth_error_ext'; [rewrite BLl, length_seg; unfold v; rewrite V by lia; lia|].
           intros x Hx. rewrite BLl in Hx. rewrite nth_error_seg. destruct (Nat.ltb_spec x (2 * l)); [|lia].
           unfold v. rewrite (VN k _ c) by lia. f_equal. lia.
         + rewrite !seg_beyond; [apply ssort_nil| |lia]. unfold v. rewrite V by lia. lia. }
  - lia.
  - intros k t Hk (L & B).
    replace (int_max_ok (k * (2 * l) + 2 * l)) with true by (unfold int_max_ok; symmetry; apply Z.leb_le; lia). cbn [require bind].
    destruct (merge_ok comp a n (k * (2 * l)) l t Ha ltac:(lia) Hk) as (t' & E & L' & U & W).
    rewrite E. exists t'. split; [reflexivity|]. split; [lia|].
    intros c x Hc Hx. destruct (Nat.eq_dec c k) as [->|Nc].
    + rewrite W by lia. reflexivity.
    + rewrite U by nia. apply B; [lia|exact Hx].
  - split; [reflexivity|]. intros; lia.
Qed.

Lemma merge_sort_ok M n (tmp : list (option A)) a : 0 < M -> n <= length a -> n <= length tmp ->
  (Z.of_nat (3 * n) <= 2147483647)%Z -> (Z.of_nat (n + M) <= 2147483647)%Z ->
  exists s', merge_sort M comp n tmp a = Ok (s' ++ skipn n a) /\ ssort comp (firstn n a) s'.
Proof.
  intros HM Ha Ht HI1 HI2. unfold merge_sort.
  destruct (first_pass M n a HM Ha HI2) as (a1 & E1 & L1 & T1 & B1). rewrite E1. cbn [bind].
  set (s := firstn n a) in *. assert (Ls : length s = n) by (unfold s; rewrite firstn_length; lia).
  edestruct (while_inv (fun '((l, t, b) : nat * list (option A) * list A) => 0 < l /\ length t = length tmp /\ length b = length a /\ skipn n b = skipn n a /\
     blocks l s (firstn n b)) (fun '(l, _, _) => n - l)) as (((l & t) & b) & E & (Hl & Lt & Lb & Tb & Bb) & C).
  4: { rewrite E. cbn [bind]. injection C as C. apply Nat.ltb_ge in C.
       exists (firstn n b). split; [f_equal; rewrite <- Tb; symmetry; apply firstn_skipn|].
       pose proof (Bb 0) as H0. cbn [Nat.mul] in H0. unfold seg in H0. cbn [skipn] in H0.
       rewrite !firstn_all2 in H0 by (rewrite ?firstn_length; lia). exact H0. }
  - intros ((l & t) & b) (Hl & Lt & Lb & Tb & Bb). eexists. split; [reflexivity|]. intros C. apply Nat.ltb_lt in C.
    destruct (merge_pass l n s t b Hl C ltac:(lia) ltac:(lia) HI1 Ls Bb) as (t' & v & E & L' & Lv & W & BV).
    rewrite E. cbn [bind]. rewrite (copy_back n t' b v) by (auto; lia). cbn [bind].
    replace (int_max_ok (l * 2)) with true by (unfold int_max_ok; symmetry; apply Z.leb_le; lia). cbn [require bind].
    eexists. split; [reflexivity|]. cbv beta iota. split.
    + destruct (app_cut v (skipn n b) n (eq_sym Lv)) as (F1 & F2).
      split; [lia|]. split; [lia|]. split; [rewrite app_length, skipn_length; lia|]. split; [rewrite F2; exact Tb|].
      rewrite F1, Nat.mul_comm. exact BV.
    + lia.
  - split; [exact HM|]. split; [reflexivity|]. split; [exact L1|]. split; [exact T1|exact B1].
  - cbv beta iota. lia.
Qed.
End MergeSort.

(** ** Index version *)
Section Index.
Context {A : Type} (lt : A -> A -> bool).
Hypothesis SWO : strict_weak_order lt.
Definition lt2 (x y : nat * A) : bool := lt (snd x) (snd y).
Lemma SWO2 : strict_weak_order lt2.
Proof.
  destruct SWO as (H1 & H2 & H3). unfold lt2. split; [intros; apply H1|]. split.
  - intros x y z. apply H2.
  - intros x y z. apply (H3 (snd x) (snd y) (snd z)).
Qed.
Notation va l := (map (@snd nat A) l).
Notation vp l := (map (fun q : nat * A => Some (fst q)) l).

Lemma index_inner_ok (L : list (nat * A)) h R hp Q t :
  exists L1 L2 h' hp', L = L1 ++ L2 /\ Forall (fun x => lt t (snd x) = true) L2 /\
    (forall L1' x, L1 = L1' ++ [x] -> lt t (snd x) = false) /\
    while_ (S (length L))
      (fun '(j, p, a) => if 0 <? j then (x <- rd a (j - 1) ;; Ok (lt t x)) else Ok false)
      (fun '(j, p, a) =>
         x <- rd a (j - 1) ;;
         a <- wr a j x ;;
         q <- rdu p (j - 1) ;;
         p <- wru p j q ;;
         Ok (j - 1, p, a))
      (length L, vp L ++ hp :: Q, va L ++ h :: R)
    = Ok (length L1, vp L1 ++ hp' :: vp L2 ++ Q, va L1 ++ h' :: va L2 ++ R).
Proof.
  edestruct (while_inv (fun '(j, p, a) => exists L1 L2 h' hp', L = L1 ++ L2 /\ j = length L1 /\
       Forall (fun x => lt t (snd x) = true) L2 /\
       p = vp L1 ++ hp' :: vp L2 ++ Q /\ a = va L1 ++ h' :: va L2 ++ R) (fun '(j, _, _) => j))
    as (((j & p) & a) & E & (L1 & L2 & h' & hp' & EL & -> & FL & -> & ->) & C).
  4: { exists L1, L2, h', hp'. split; [exact EL|]. split; [exact FL|]. split; [|exact E].
       intros L1' x ->. rewrite app_length in C. cbn [length] in C.
       destruct (Nat.ltb_spec 0 (length L1' + 1)); [|lia].
       rewrite map_app, <- app_assoc in C. cbn [map app] in C.
       rewrite rd_mid in C by (rewrite map_length; lia). cbn [bind] in C. injection C as C. exact C. }
  - intros ((j & p) & a) (L1 & L2 & h' & hp' & EL & -> & FL & -> & ->). destruct (Nat.ltb_spec 0 (length L1)) as [H0|H0].
    + destruct (exists_last (l := L1)) as (L1' & x & E1); [intros ->; cbn in H0; lia|]. subst L1.
      rewrite app_length, !map_app, <- !app_assoc. cbn [length map app].
      rewrite rd_mid by (rewrite map_length; lia). cbn [bind]. eexists. split; [reflexivity|]. intros Hc.
      replace (va L1' ++ snd x :: h' :: va L2 ++ R) with ((va L1' ++ [snd x]) ++ h' :: va L2 ++ R)
        by (rewrite <- app_assoc; reflexivity).
      rewrite wr_mid by (rewrite app_length, map_length; cbn [length]; lia). cbn [bind].
      rewrite rdu_mid by (rewrite map_length; lia). cbn [bind].
      replace (vp L1' ++ Some (fst x) :: hp' :: vp L2 ++ Q) with ((vp L1' ++ [Some (fst x)]) ++ hp' :: vp L2 ++ Q)
        by (rewrite <- app_assoc; reflexivity).
      unfold wru. rewrite wr_mid by (rewrite app_length, map_length; cbn [length]; lia). cbn [bind].
      eexists. split; [reflexivity|]. split.
      * exists L1', (x :: L2), (snd x), (Some (fst x)). split; [rewrite EL, <- app_assoc; reflexivity|]. split; [lia|].
        split; [constructor; assumption|]. cbn [map app]. rewrite <- !app_assoc. split; reflexivity.
      * lia.
    + eexists. split; [reflexivity|]. discriminate.
  - exists L, [], h, hp. rewrite app_nil_r. repeat split; constructor.
  - cbv beta iota. lia.
Qed.

Definition enum (s : list A) : list (nat * A) := combine (seq 0 (length s)) s.
Lemma enum_snoc s t : enum (s ++ [t]) = enum s ++ [(length s, t)].
Proof.
  unfold enum. rewrite app_length, seq_app. cbn [length seq Nat.add].
  generalize (seq_length (length s) 0). generalize (seq 0 (length s)). intros l Hl.
  revert l Hl. induction s as [|x s IH]; intros [|y l] Hl; cbn in Hl; try lia; [reflexivity|].
  cbn [combine app length]. f_equal. rewrite Nat.add_0_l || idtac. 
  assert (G : forall (l : list nat) (s : list A) k t, length l = length s -> combine (l ++ [k]) (s ++ [t]) = combine l s ++ [(k, t)]).
  { clear. induction l as [|y l IH]; intros [|x s] k t H; cbn in H; try lia; [reflexivity|]. cbn. f_equal. apply IH. lia. }
  rewrite G by lia. reflexivity.
Qed.
Lemma length_enum s : length (enum s) = length s.
Proof. unfold enum. rewrite combine_length, seq_length. lia. Qed.
Lemma snd_enum s : va (enum s) = s.
Proof.
  unfold enum. generalize (seq_length (length s) 0). generalize (seq 0 (length s)). intros l. revert l.
  induction s as [|x s IH]; intros [|y l] H; cbn in H; try lia; [reflexivity|]. cbn. f_equal. apply IH. lia.
Qed.
Lemma fst_enum s : map fst (enum s) = seq 0 (length s).
Proof.
  unfold enum. generalize (seq_length (length s) 0). generalize (seq 0 (length s)). intros l. revert l.
  induction s as [|x s IH]; intros [|y l] H; cbn in H; try lia; [reflexivity|]. cbn. f_equal. apply IH. lia.
Qed.
Lemma enum_in s k v : In (k, v) (enum s) -> nth_error s k = Some v.
Proof.
  revert k v. induction s as [|x s IH] using rev_ind; intros k v H; [destruct H|].
  rewrite enum_snoc in H. apply in_app_or in H. destruct H as [H|[H|[]]].
  - apply IH in H. rewrite nth_error_app1; [exact H|]. apply nth_error_Some. congruence.
  - injection H as <- <-. rewrite nth_error_app2, Nat.sub_diag by lia. reflexivity.
Qed.

Lemma index_sort_ok (s post : list A) (p q : list (option nat)) : 0 < length s -> length p = length s ->
  exists L, insertion_sort_index lt (length s) (p ++ q) (s ++ post) = Ok (vp L ++ q, va L ++ post) /\ ssort lt2 (enum s) L.
Proof.
  intros Hs Hp. unfold insertion_sort_index. destruct s as [|x0 s0] eqn:Es; [cbn in Hs; lia|]. rewrite <- Es in *.
  destruct p as [|p0 p1] eqn:Ep; [cbn in Hp; lia|]. rewrite <- Ep in Hp.
  assert (W0 : wru ((p0 :: p1) ++ q) 0 0 = Ok (Some 0 :: p1 ++ q)).
  { unfold wru. cbn [app]. apply (wr_mid [] (p1 ++ q) p0 (Some 0) 0). reflexivity. }
  rewrite W0. cbn [bind].
  edestruct (for_up_inv (fun i '(pp, a) => exists L R Q, length L = i /\ s = firstn i s ++ R /\ length Q = length R /\
     pp = vp L ++ Q ++ q /\ a = va L ++ R ++ post /\ ssort lt2 (enum (firstn i s)) L))
    as ((pp & a) & E & (L & R & Q & HL & HR & HQ & -> & -> & HS)).
  4: { rewrite E. rewrite firstn_all in HR, HS. assert (R = []) by (destruct R; [reflexivity|apply (f_equal (@length A)) in HR; rewrite app_length in HR; cbn in HR; lia]).
       subst R. destruct Q; [|discriminate]. exists L. split; [reflexivity|exact HS]. }
  - lia.
  - intros i (pp & a) Hi (L & R & Q & HL & HR & HQ & -> & -> & HS).
    destruct R as [|t R]; [apply (f_equal (@length A)) in HR; rewrite app_nil_r, firstn_length in HR; lia|].
    destruct Q as [|hq Q]; [discriminate|].
    assert (F1 : firstn (S i) s = firstn i s ++ [t]).
    { apply (firstn_step i s t R); [lia|exact HR]. }
    cbn [app]. rewrite rd_mid by (rewrite map_length; lia). cbn [bind].
    destruct (index_inner_ok L t (R ++ post) hq (Q ++ q) t) as (L1 & L2 & h' & hp' & EL & FL & LL & EI).
    rewrite HL in EI. rewrite EI. cbn [bind].
    rewrite wr_mid by (rewrite map_length; reflexivity). cbn [bind].
    unfold wru. rewrite wr_mid by (rewrite map_length; reflexivity). cbn [bind].
    eexists. split; [reflexivity|]. cbv beta iota. exists (L1 ++ (i, t) :: L2), R, Q.
    split; [rewrite EL, app_length in HL; rewrite app_length; cbn [length]; lia|].
    split; [rewrite F1, <- app_assoc; exact HR|]. split; [cbn in HQ; lia|].
    split; [rewrite map_app, <- app_assoc; reflexivity|]. split; [rewrite map_app, <- app_assoc; reflexivity|].
    rewrite F1, enum_snoc. replace (length (firstn i s)) with i by (rewrite firstn_length; lia).
    rewrite EL in HS. apply (insert_ssort lt2 SWO2); [exact HS|exact FL|exact LL].
  - exists [(0, x0)], s0, p1. split; [reflexivity|]. split; [rewrite Es; reflexivity|].
    split; [rewrite Ep, Es in Hp; cbn in Hp; lia|]. split; [reflexivity|]. split; [rewrite Es; reflexivity|].
    rewrite Es. cbn [firstn]. apply (insert_ssort lt2 SWO2 [] (0, x0) [] []); [apply ssort_nil|constructor|].
    intros [|? ?] ?; discriminate.
Qed.

(** what the sorted list of pairs says about p and a *)
Lemma pairs_spec s L : ssort lt2 (enum s) L ->
  Permutation (seq 0 (length s)) (map fst L) /\
  (forall i k v, nth_error L i = Some (k, v) -> nth_error s k = Some v) /\
  stably_sorted lt s (va L).
Proof.
  intros H. pose proof H as (P & S & F). split; [|split].
  - rewrite <- fst_enum. apply Permutation_map. exact P.
  - intros i k v Hi. apply nth_error_In in Hi. apply enum_in. apply (Permutation_in _ (Permutation_sym P)). exact Hi.
  - apply (ssort_spec lt). split; [|split].
    + rewrite <- (snd_enum s) at 1. apply Permutation_map. exact P.
    + clear - S. induction S as [|x l S IH Hx]; cbn [map]; constructor; [exact IH|].
      apply Forall_forall. intros y Hy. apply in_map_iff in Hy. destruct Hy as (u & <- & Hu).
      rewrite Forall_forall in Hx. exact (Hx u Hu).
    + intros z. specialize (F (0, z)).
      assert (G : forall l : list (nat * A), filter (equiv lt z) (va l) = va (filter (equiv lt2 (0, z)) l)).
      { induction l as [|x l IH]; [reflexivity|]. cbn [map filter].
        change (equiv lt2 (0, z) x) with (equiv lt z (snd x)).
        destruct (equiv lt z (snd x)); cbn [map]; rewrite IH; reflexivity. }
      rewrite <- (snd_enum s), !G, F. reflexivity.
Qed.

Lemma filter_split_order {B} (f : B -> bool) (L : list B) i j x y : i < j -> nth_error L i = Some x -> nth_error L j = Some y ->
  f x = true -> f y = true -> exists a b c, filter f L = a ++ x :: b ++ y :: c.
Proof.
  intros Hij Hi Hj Fx Fy. apply nth_error_split in Hi. destruct Hi as (l1 & l2 & -> & Hl).
  rewrite nth_error_app2 in Hj by lia. replace (j - length l1) with (S (j - length l1 - 1)) in Hj by lia. cbn [nth_error] in Hj.
  apply nth_error_split in Hj. destruct Hj as (l3 & l4 & -> & _).
  exists (filter f l1), (filter f l3), (filter f l4).
  rewrite filter_app. cbn [filter]. rewrite Fx, filter_app. cbn [filter]. rewrite Fy. reflexivity.
Qed.
Lemma enum_sorted (s : list A) : StronglySorted (fun x y : nat * A => fst x < fst y) (enum s).
Proof.
  induction s as [|x s IH] using rev_ind; [constructor|]. rewrite enum_snoc.
  assert (H : Forall (fun q => fst q < length s) (enum s)).
  { apply Forall_forall. intros (k & v) Hq. apply enum_in in Hq. cbn [fst]. apply nth_error_Some. congruence. }
  revert H. generalize (length s). induction IH as [|q l S IH2 Hq]; intros n H; cbn [app]; [repeat constructor|].
  apply Forall_cons_iff in H. destruct H as (H1 & H2). constructor; [apply IH2; exact H2|].
  apply Forall_app. split; [exact Hq|]. constructor; [exact H1|constructor].
Qed.
Lemma ssorted_filter {B} (R : B -> B -> Prop) f (l : list B) : StronglySorted R l -> StronglySorted R (filter f l).
Proof.
  induction 1 as [|x l S IH H]; cbn [filter]; [constructor|]. destruct (f x); [|exact IH].
  constructor; [exact IH|]. apply Forall_forall. intros y Hy. apply filter_In in Hy. rewrite Forall_forall in H. apply H, Hy.
Qed.
Lemma ssorted_order {B} (R : B -> B -> Prop) a x b y c : StronglySorted R (a ++ x :: b ++ y :: c) -> R x y.
Proof.
  induction a as [|z a IH]; cbn [app]; intros H; inversion H; subst; auto.
  rewrite Forall_forall in H3. apply H3. apply in_or_app. right. left. reflexivity.
Qed.
(** equivalent elements keep increasing indices *)
Lemma pairs_order s L i j k v k' v' : ssort lt2 (enum s) L -> i < j -> nth_error L i = Some (k, v) -> nth_error L j = Some (k', v') ->
  equiv lt v v' = true -> k < k'.
Proof.
  intros (_ & _ & F) Hij Hi Hj Hv. destruct SWO as (H1 & _ & _).
  assert (E1 : equiv lt2 (0, v) (k, v) = true) by (unfold equiv, lt2; cbn [snd]; rewrite H1; reflexivity).
  destruct (filter_split_order (equiv lt2 (0, v)) L i j (k, v) (k', v') Hij Hi Hj E1 Hv) as (a & b & c & E).
  rewrite F in E. pose proof (ssorted_filter _ (equiv lt2 (0, v)) _ (enum_sorted s)) as S. rewrite E in S.
  apply ssorted_order in S. exact S.
Qed.
End Index.

(** A stable sort has only one result. *)
Section Unique.
Context {A : Type} (comp : A -> A -> bool).
Hypothesis SWO : strict_weak_order comp.
Lemma stable_unique s a b : stably_sorted comp s a -> stably_sorted comp s b -> a = b.
Proof.
  destruct SWO as (IR & TR & EQ).
  assert (ER : forall x, equiv comp x x = true) by (intros x; unfold equiv; rewrite IR; reflexivity).
  assert (G : forall (a b : list A), Permutation a b ->
     (forall i j x y, i < j -> nth_error a i = Some x -> nth_error a j = Some y -> comp y x = false) ->
     (forall i j x y, i < j -> nth_error b i = Some x -> nth_error b j = Some y -> comp y x = false) ->
     (forall z, filter (equiv comp z) a = filter (equiv comp z) b) -> a = b).
  { induction a0 as [|x a0 IH]; intros b0 P Sa Sb F.
    - apply Permutation_nil in P. subst. reflexivity.
    - destruct b0 as [|y b0]; [apply Permutation_sym, Permutation_nil in P; discriminate|].
      assert (HX : equiv comp x y = true).
      { unfold equiv. apply andb_true_iff. rewrite !negb_true_iff. split.
        - assert (I : In x (y :: b0)) by (apply (Permutation_in _ P); left; reflexivity).
          destruct I as [->|I]; [apply IR|]. apply In_nth_error in I. destruct I as (j & Hj).
          exact (Sb 0 (S j) y x ltac:(lia) eq_refl Hj).
        - assert (I : In y (x :: a0)) by (apply (Permutation_in _ (Permutation_sym P)); left; reflexivity).
          destruct I as [->|I]; [apply IR|]. apply In_nth_error in I. destruct I as (j & Hj).
          exact (Sa 0 (S j) x y ltac:(lia) eq_refl Hj). }
      assert (x = y).
      { specialize (F x). cbn [filter] in F. rewrite ER, HX in F. injection F. auto. }
      subst y. f_equal. apply IH.
      + apply (Permutation_cons_inv P).
      + intros i j u v Hij Hu Hv. exact (Sa (S i) (S j) u v ltac:(lia) Hu Hv).
      + intros i j u v Hij Hu Hv. exact (Sb (S i) (S j) u v ltac:(lia) Hu Hv).
      + intros z. specialize (F z). cbn [filter] in F. destruct (equiv comp z x); [injection F; auto|exact F]. }
  intros (P1 & S1 & F1) (P2 & S2 & F2). apply G; auto.
  - rewrite <- P1. exact P2.
  - intros z. rewrite F1, F2. reflexivity.
Qed.
End Unique.
