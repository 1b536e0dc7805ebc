(** The index sort with any comparison, also one that is no ordering (floats with NaN). *)
From Coq Require Import ZifyBool ZifyNat Permutation Sorted.
From Verif Require Import Cpp Model_sort Proof_sort.
Local Open Scope nat_scope.
Ltac Zify.zify_post_hook ::= idtac.

Section Index.
Context {A : Type} (lt : A -> A -> bool).
(** where the comparison is an ordering *)
Variable D : A -> Prop.
Hypothesis asym : forall x y, D x -> D y -> lt x y = true -> lt y x = false.
Hypothesis negtrans : forall x y z, D x -> D y -> D z -> lt x y = false -> lt y z = false -> lt x z = false.
Notation va := (map (@snd nat A)).
Notation vp := (map (fun x : nat * A => Some (fst x))).
Definition leq (x y : nat * A) : Prop := lt (snd y) (snd x) = false.

Lemma SS_app' {B} (R : B -> B -> Prop) l1 : forall l2, StronglySorted R l1 -> StronglySorted R l2 -> (forall x y, In x l1 -> In y l2 -> R x y) -> StronglySorted R (l1 ++ l2).
Proof.
  induction l1 as [|x l1 IH]; intros l2 H1 H2 H; [exact H2|]. cbn. inversion H1; subst. constructor.
  - apply IH; [assumption|assumption|]. intros; apply H; [right; assumption|assumption].
  - apply Forall_app. split; [assumption|]. apply Forall_forall. intros y Hy. apply H; [left; reflexivity|exact Hy].
Qed.
Lemma SS_app_inv {B} (R : B -> B -> Prop) l1 : forall l2, StronglySorted R (l1 ++ l2) -> StronglySorted R l1 /\ StronglySorted R l2 /\ forall x y, In x l1 -> In y l2 -> R x y.
Proof.
  induction l1 as [|x l1 IH]; intros l2 H.
  - split; [constructor|]. split; [exact H|]. intros x y [].
  - cbn in H. inversion H as [|? ? H1 H2]; subst. destruct (IH l2 H1) as (A1 & A2 & A3). rewrite Forall_app in H2. destruct H2 as (H2 & H3). split; [constructor; assumption|]. split; [exact A2|].
    intros u y [<- | Hu] Hy; [rewrite Forall_forall in H3; apply H3; exact Hy|apply A3; assumption].
Qed.
Lemma insert_sorted L1 L2 (t : nat * A) : Forall (fun x => D (snd x)) (L1 ++ L2) -> D (snd t) -> StronglySorted leq (L1 ++ L2) ->
  Forall (fun x => lt (snd t) (snd x) = true) L2 -> (forall L1' x, L1 = L1' ++ [x] -> lt (snd t) (snd x) = false) -> StronglySorted leq (L1 ++ t :: L2).
Proof.
  intros F Dt S F2 Hl. apply SS_app_inv in S. destruct S as (S1 & S2 & S3). apply Forall_app in F. destruct F as (G1 & G2). rewrite Forall_forall in G1, G2, F2.
  apply SS_app'; [exact S1| |].
  - constructor; [exact S2|]. apply Forall_forall. intros y Hy. unfold leq. apply asym; auto.
  - assert (forall x, In x L1 -> lt (snd t) (snd x) = false) as Q.
    { destruct L1 as [|x0 L1'] using rev_ind; [intros x []|]. clear IHL1'. specialize (Hl L1' x0 eq_refl). intros x Hx. apply in_app_or in Hx. destruct Hx as [Hx|[<-|[]]]; [|exact Hl].
      apply SS_app_inv in S1. destruct S1 as (_ & _ & S1). specialize (S1 x x0 Hx ltac:(left; reflexivity)). unfold leq in S1.
      apply (negtrans _ (snd x0)); auto; apply G1; apply in_or_app; [right; left; reflexivity|left; exact Hx]. }
    intros x y Hx [<- | Hy]; [unfold leq; apply Q; exact Hx|apply S3; assumption].
Qed.

Lemma index_any (s : list A) (p : list (option nat)) : 0 < length s -> length p = length s ->
  exists L, insertion_sort_index lt (length s) p s = Ok (vp L, va L) /\ Permutation (enum s) L /\ (Forall D s -> StronglySorted leq L).
Proof.
  intros Hs Hp. unfold insertion_sort_index. destruct s as [|x0 s0] eqn:Es; [cbn in Hs; lia|]. rewrite <- Es in *.
  destruct p as [|p0 p1] eqn:Ep; [cbn in Hp; lia|]. rewrite <- Ep in Hp.
  assert (W0 : wru (p0 :: p1) 0 0 = Ok (Some 0 :: p1)).
  { unfold wru. apply (wr_mid [] p1 p0 (Some 0) 0). reflexivity. }
  rewrite W0. cbn [bind].
  edestruct (for_up_inv (fun i '(pp, a) => exists L R Q, length L = i /\ s = firstn i s ++ R /\ length Q = length R /\
     pp = vp L ++ Q /\ a = va L ++ R /\ Permutation (enum (firstn i s)) L /\ (Forall D s -> StronglySorted leq L)))
    as ((pp & a) & E & (L & R & Q & HL & HR & HQ & -> & -> & HS)).
  4: { rewrite E. rewrite firstn_all in HR, HS. assert (R = []) by (destruct R; [reflexivity|apply (f_equal (@length A)) in HR; rewrite app_length in HR; cbn in HR; lia]).
       subst R. destruct Q; [|discriminate]. rewrite !app_nil_r. exists L. split; [reflexivity|exact HS]. }
  - lia.
  - intros i (pp & a) Hi (L & R & Q & HL & HR & HQ & -> & -> & HP & HS).
    destruct R as [|t R]; [apply (f_equal (@length A)) in HR; rewrite app_nil_r, firstn_length in HR; lia|].
    destruct Q as [|hq Q]; [discriminate|].
    assert (F1 : firstn (S i) s = firstn i s ++ [t]).
    { apply (firstn_step i s t R); [lia|exact HR]. }
    rewrite rd_mid by (rewrite map_length; lia). cbn [bind].
    destruct (index_inner_ok lt L t R hq Q t) as (L1 & L2 & h' & hp' & EL & FL & LL & EI).
    rewrite HL in EI. rewrite EI. cbn [bind].
    rewrite wr_mid by (rewrite map_length; reflexivity). cbn [bind].
    unfold wru. rewrite wr_mid by (rewrite map_length; reflexivity). cbn [bind].
    eexists. split; [reflexivity|]. cbv beta iota. exists (L1 ++ (i, t) :: L2), R, Q.
    split; [rewrite EL, app_length in HL; rewrite app_length; cbn [length]; lia|].
    split; [rewrite F1, <- app_assoc; exact HR|]. split; [cbn in HQ; lia|].
    split; [rewrite map_app, <- app_assoc; reflexivity|]. split; [rewrite map_app, <- app_assoc; reflexivity|].
    rewrite F1, enum_snoc. replace (length (firstn i s)) with i by (rewrite firstn_length; lia). split.
    + rewrite EL in HP. apply Permutation_trans with ((L1 ++ L2) ++ [(i, t)]); [apply Permutation_app_tail; exact HP|].
      rewrite <- app_assoc. apply Permutation_app_head. apply Permutation_sym, Permutation_cons_append.
    + intros FD. specialize (HS FD). rewrite EL in HS, HP. apply insert_sorted; try assumption.
      * apply Forall_forall. intros [k v] Hv. apply (Permutation_in _ (Permutation_sym HP)) in Hv. apply enum_in in Hv. apply nth_error_In in Hv.
        rewrite Forall_forall in FD. apply FD. cbn [snd]. rewrite HR. apply in_or_app. left. exact Hv.
      * rewrite Forall_forall in FD. apply FD. cbn [snd]. rewrite HR. apply in_or_app. right. left. reflexivity.
  - exists [(0, x0)], s0, p1. split; [reflexivity|]. split; [rewrite Es; reflexivity|].
    split; [rewrite Ep, Es in Hp; cbn in Hp; lia|]. split; [reflexivity|]. split; [rewrite Es; reflexivity|].
    rewrite Es. cbn [firstn]. split; [apply Permutation_refl|]. intros _. constructor; [constructor|constructor].
Qed.
(** in terms of positions *)
Lemma index_positions (s : list A) (p : list (option nat)) (d : A) : 0 < length s -> length p = length s ->
  exists q s', insertion_sort_index lt (length s) p s = Ok (map Some q, s') /\ Permutation (seq 0 (length s)) q /\ length q = length s /\ length s' = length s /\
    (forall i, i < length s -> nth i q 0 < length s /\ nth i s' d = nth (nth i q 0) s d) /\
    (Forall D s -> forall i j, i < j -> j < length s -> lt (nth j s' d) (nth i s' d) = false).
Proof.
  intros Hs Hp. destruct (index_any s p Hs Hp) as (L & E & P & S). exists (map fst L), (va L).
  assert (length L = length s) as LL by (apply Permutation_length in P; rewrite length_enum in P; lia).
  split; [rewrite E, map_map; reflexivity|]. split; [rewrite <- fst_enum; apply Permutation_map; exact P|]. rewrite !map_length. split; [exact LL|]. split; [exact LL|]. split.
  - intros i Hi. destruct (nth_error L i) as [[k v]|] eqn:Ei; [|apply nth_error_None in Ei; lia].
    assert (nth_error s k = Some v) as Es by (apply enum_in; apply (Permutation_in _ (Permutation_sym P)); eapply nth_error_In; exact Ei).
    assert (nth i (map fst L) 0 = k) as -> by (apply nth_error_nth; rewrite nth_error_map, Ei; reflexivity).
    assert (nth i (va L) d = v) as -> by (apply nth_error_nth; rewrite nth_error_map, Ei; reflexivity).
    split; [apply nth_error_Some; congruence|]. symmetry. apply nth_error_nth. exact Es.
  - intros FD i j Hij Hj. specialize (S FD).
    assert (forall (l : list (nat * A)), StronglySorted leq l -> forall i j, i < j -> j < length l -> lt (nth j (va l) d) (nth i (va l) d) = false) as G.
    { clear. induction 1 as [|x l S IH F]; intros i j Hij Hj; cbn [length] in Hj; [lia|]. destruct j as [|j]; [lia|]. destruct i as [|i]; cbn [map nth].
      - rewrite Forall_forall in F. destruct (nth_error l j) as [y|] eqn:Ey; [|apply nth_error_None in Ey; lia].
        replace (nth j (va l) d) with (snd y) by (symmetry; apply nth_error_nth; rewrite nth_error_map, Ey; reflexivity). apply F. eapply nth_error_In. exact Ey.
      - apply IH; lia. }
    apply G; [exact S|exact Hij|lia].
Qed.
End Index.
