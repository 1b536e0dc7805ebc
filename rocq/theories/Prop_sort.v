(** Properties C17-C19: sort.hh, simd_sort.hh. *)
From Coq Require Import Permutation.
From Verif Require Import Cpp Model_sort Spec_sort Proof_sort.

(** C17: the [length s] elements behind the pointer [length pre] are sorted stably; memory before and
    behind them is untouched. *)
Theorem C17_insertion_sort : forall (A : Type) (comp : A -> A -> bool) (pre s post : list A),
  strict_weak_order comp ->
  exists s', insertion_sort comp (length pre) (length s) (pre ++ s ++ post) = Ok (pre ++ s' ++ post) /\
    stably_sorted comp s s'.
Proof.
  intros A comp pre s post H. destruct (insertion_sort_ok comp H pre s post) as (s' & E & S). exists s'.
  split; [exact E|]. apply (ssort_spec comp). exact S.
Qed.
Print Assumptions C17_insertion_sort.

(** C18: [p] may hold anything before; [post] and [q] lie behind the [length s] elements. *)
Theorem C18_index_sort : forall (A : Type) (lt : A -> A -> bool) (s post : list A) (p q : list (option nat)),
  strict_weak_order lt -> 0 < length s -> length p = length s ->
  exists s' p', insertion_sort_index lt (length s) (p ++ q) (s ++ post) = Ok (map Some p' ++ q, s' ++ post) /\
    stably_sorted lt s s' /\ Permutation (seq 0 (length s)) p' /\
    (forall i, i < length s -> exists k x, nth_error p' i = Some k /\ nth_error s' i = Some x /\ nth_error s k = Some x) /\
    (forall i j k l x y, i < j -> nth_error p' i = Some k -> nth_error p' j = Some l ->
       nth_error s' i = Some x -> nth_error s' j = Some y -> equiv lt x y = true -> k < l).
Proof.
  intros A lt s post p q H Hs Hp. destruct (index_sort_ok lt H s post p q Hs Hp) as (L & E & S).
  destruct (pairs_spec lt s L S) as (P & V & ST). exists (map snd L), (map fst L).
  split; [rewrite E, map_map; reflexivity|]. split; [exact ST|]. split; [exact P|].
  assert (LL : length L = length s).
  { apply Permutation_length in P. rewrite seq_length, map_length in P. lia. }
  split.
  - intros i Hi. destruct (nth_error L i) as [(k & x)|] eqn:Ei; [|apply nth_error_None in Ei; lia].
    exists k, x. rewrite !nth_error_map, Ei. repeat split; auto. exact (V i k x Ei).
  - intros i j k l x y Hij Hk Hl Hx Hy HE. rewrite nth_error_map in Hk, Hl, Hx, Hy.
    destruct (nth_error L i) as [(k0 & x0)|] eqn:Ei; [|discriminate]. destruct (nth_error L j) as [(l0 & y0)|] eqn:Ej; [|discriminate].
    cbn in *. injection Hk as <-. injection Hl as <-. injection Hx as <-. injection Hy as <-.
    exact (pairs_order lt H s L i j _ _ _ _ S Hij Ei Ej HE).
Qed.
Print Assumptions C18_index_sort.
Theorem C18_vorder : forall (A : Type) (lt : A -> A -> bool) (s : list A),
  strict_weak_order lt -> 0 < length s ->
  exists s' p', vorder lt (length s) s = Ok (map Some p') /\ vsort lt (length s) s = Ok s' /\
    stably_sorted lt s s' /\ Permutation (seq 0 (length s)) p' /\
    (forall i, i < length s -> exists k x, nth_error p' i = Some k /\ nth_error s' i = Some x /\ nth_error s k = Some x).
Proof.
  intros A lt s H Hs.
  destruct (C18_index_sort A lt s [] (uninit nat (length s)) [] H Hs (repeat_length _ _)) as (s' & p' & E & ST & P & V & _).
  rewrite !app_nil_r in E.
  destruct (insertion_sort_ok lt H [] s []) as (s2 & E2 & S2). cbn [app length] in E2. rewrite !app_nil_r in E2.
  apply (ssort_spec lt) in S2. exists s', p'. unfold vorder, vsort. rewrite E. cbn [bind]. split; [reflexivity|].
  split; [|auto]. rewrite E2. f_equal. symmetry. exact (stable_unique lt H s s' s2 ST S2).
Qed.
Print Assumptions C18_vorder.

(** C19: [tmp] is the MAX_N element member array, with any content; [post] is the memory behind a[n-1]. *)
Theorem C19_merge_sort : forall (A : Type) (comp : A -> A -> bool) (M : nat) (s post : list A) (tmp : list (option A)),
  strict_weak_order comp -> 0 < M -> length s <= length tmp ->
  (Z.of_nat (3 * length s) <= 2147483647)%Z -> (Z.of_nat (length s + M) <= 2147483647)%Z ->
  exists s', merge_sort M comp (length s) tmp (s ++ post) = Ok (s' ++ post) /\ stably_sorted comp s s'.
Proof.
  intros A comp M s post tmp H HM Ht H1 H2.
  destruct (merge_sort_ok comp H M (length s) tmp (s ++ post)) as (s' & E & S); auto; [rewrite app_length; lia|].
  rewrite skipn_app, skipn_all, Nat.sub_diag in E. rewrite firstn_app, firstn_all, Nat.sub_diag, app_nil_r in S.
  exists s'. split; [exact E|]. apply (ssort_spec comp). exact S.
Qed.
Print Assumptions C19_merge_sort.

(** The first components are the keys: the comparison does not see the second ones. *)
Definition by_key (x y : nat * nat) : bool := fst x <? fst y.
Lemma by_key_swo : strict_weak_order by_key.
Proof.
  unfold by_key, strict_weak_order, equiv. split; [intros x; apply Nat.ltb_irrefl|]. split.
  - intros x y z H1 H2. apply Nat.ltb_lt in H1. apply Nat.ltb_lt in H2. apply Nat.ltb_lt. lia.
  - intros x y z H1 H2. apply andb_true_iff in H1. apply andb_true_iff in H2. apply andb_true_iff.
    rewrite !negb_true_iff, !Nat.ltb_ge in *. lia.
Qed.
Example C17_nonvacuous :
  insertion_sort by_key 1 4 [(9, 9); (3, 1); (1, 2); (3, 3); (1, 4); (0, 5)] = Ok [(9, 9); (1, 2); (1, 4); (3, 1); (3, 3); (0, 5)].
Proof. reflexivity. Qed.
Example C18_nonvacuous :
  insertion_sort_index by_key 4 [None; None; None; None] [(3, 1); (1, 2); (3, 3); (1, 4)]
  = Ok ([Some 1; Some 3; Some 0; Some 2], [(1, 2); (1, 4); (3, 1); (3, 3)]).
Proof. reflexivity. Qed.
Example C19_nonvacuous :
  merge_sort 2 by_key 7 (repeat None 8) [(3, 1); (1, 2); (3, 3); (1, 4); (2, 5); (0, 6); (1, 7); (0, 8)]
  = Ok [(0, 6); (1, 2); (1, 4); (1, 7); (2, 5); (3, 1); (3, 3); (0, 8)].
Proof. reflexivity. Qed.
