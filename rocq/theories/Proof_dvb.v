(** Checking LDPC tables by computation on binary numbers. *)
From Coq Require Import ZifyBool ZifyNat ZifyN Permutation.
From Verif Require Import Cpp Model_ldpc Spec_ldpc Lib_list Proof_ldpc1 Proof_ldpc5 Model_dvb.
Open Scope nat_scope.
Ltac Zify.zify_post_hook ::= idtac.

(** the rows, for entries of any type *)
Fixpoint cut {A} (count deg : nat) (pos : list A) : list (list A) :=
  match count with O => [] | S c => firstn deg pos :: cut c deg (skipn deg pos) end.
Fixpoint rows_gen {A} (len deg : list nat) (pos : list A) : list (list A) :=
  match len, deg with
  | S l :: len', d :: deg' => cut (S l) d pos ++ rows_gen len' deg' (skipn (S l * d) pos)
  | _, _ => []
  end.
Fixpoint complete_gen {A} (len deg : list nat) (pos : list A) : bool :=
  match len, deg with
  | O :: _, _ => true
  | S l :: len', d :: deg' => (S l * d <=? length pos) && complete_gen len' deg' (skipn (S l * d) pos)
  | _, _ => false
  end.
Lemma cut_map {A} (f : A -> nat) c d pos : cut_rows c d (map f pos) = map (map f) (cut c d pos).
Proof.
  revert pos. induction c as [|c IH]; intros pos; [reflexivity|]. cbn [cut_rows cut map]. rewrite firstn_map, skipn_map, IH. reflexivity.
Qed.
Lemma rows_map {A} (f : A -> nat) len deg pos : table_rows len deg (map f pos) = map (map f) (rows_gen len deg pos).
Proof.
  revert deg pos. induction len as [|l len IH]; intros deg pos; [reflexivity|]. destruct l as [|l]; [reflexivity|].
  destruct deg as [|d deg]; [reflexivity|]. cbn [table_rows rows_gen]. rewrite map_app, cut_map, skipn_map, IH. reflexivity.
Qed.
Lemma complete_map {A} (f : A -> nat) len deg pos : complete len deg (map f pos) = complete_gen len deg pos.
Proof.
  revert deg pos. induction len as [|l len IH]; intros deg pos; [reflexivity|]. destruct l as [|l]; [reflexivity|].
  destruct deg as [|d deg]; [reflexivity|]. cbn [complete complete_gen]. rewrite map_length, skipn_map, IH. reflexivity.
Qed.
Definition upto (n : N) : list N := map N.of_nat (seq 0 (N.to_nat n)).
Lemma upto_forall f n : forallb f (upto n) = true -> forall i, (i < n)%N -> f i = true.
Proof.
  intros H i Hi. rewrite forallb_forall in H. apply H. unfold upto. rewrite <- (N2Nat.id i). apply in_map. apply in_seq. lia.
Qed.
Lemma filter_map {A B} (f : A -> B) (p : B -> bool) l : filter p (map f l) = map f (filter (fun x => p (f x)) l).
Proof. induction l as [|x l IH]; [reflexivity|]. cbn [map filter]. destruct (p (f x)); cbn [map]; rewrite IH; reflexivity. Qed.
Lemma length_filter_ext {A} (f g : A -> bool) l : (forall x, f x = g x) -> filter f l = filter g l.
Proof. intros H. apply filter_ext. exact H. Qed.

Definition chk_table (m n k max total : N) (deg len : list nat) (pos : list N) (D : N) : bool :=
  let r := (n - k)%N in let q := (r / m)%N in let rows := rows_gen len deg pos in let all := concat rows in
  ((0 <? m) && (0 <? q) && (r =? m * q) && (k =? m * N.of_nat (length rows)) && (k <=? 65536) &&
   forallb (fun x => x <? r) all && (2 <=? max) && (max <=? 32) &&
   forallb (fun i => N.of_nat (length (filter (fun x => x mod q =? i) all)) <=? max - 2) (upto q) &&
   (total =? m * N.of_nat (length all) + 2 * r - 1) && (2 <=? D) && (m mod D =? 0))%N && complete_gen len deg pos.
Lemma chk_table_ok m n k max total deg len pos D : chk_table m n k max total deg len pos D = true ->
  decoder_ok (table_of m n k max total deg len pos) (N.to_nat D).
Proof.
  unfold chk_table. cbv zeta. intros H.
  repeat (apply andb_prop in H; destruct H as [H ?]).
  repeat match goal with
  | H : (_ <? _)%N = true |- _ => apply N.ltb_lt in H
  | H : (_ =? _)%N = true |- _ => apply N.eqb_eq in H
  | H : (_ <=? _)%N = true |- _ => apply N.leb_le in H
  end.
  set (T := table_of m n k max total deg len pos).
  assert (t_R T = N.to_nat (n - k)) as ER by (unfold t_R, T, table_of; cbn [t_N t_K]; lia).
  assert (t_q T = N.to_nat ((n - k) / m)) as Eq by (unfold t_q; rewrite ER; unfold T, table_of; cbn [t_M]; symmetry; apply N2Nat.inj_div).
  assert (rows_of T = map (map N.to_nat) (rows_gen len deg pos)) as Erows by (unfold rows_of, T, table_of; cbn [t_len t_deg t_pos]; apply rows_map).
  assert (concat (rows_of T) = map N.to_nat (concat (rows_gen len deg pos))) as Econ by (rewrite Erows, concat_map; reflexivity).
  set (r := (n - k)%N) in *. set (q := (r / m)%N) in *. clearbody q r.
  change (t_M T) with (N.to_nat m) in *.
  constructor; [constructor| | | |].
  all: change (t_M T) with (N.to_nat m); change (t_max T) with (N.to_nat max); change (t_total T) with (N.to_nat total);
    change (t_K T) with (N.to_nat k); change (t_len T) with len; change (t_deg T) with deg; change (t_pos T) with (map N.to_nat pos).
  all: rewrite ?ER, ?Eq, ?Econ, ?map_length.
  - lia.
  - lia.
  - lia.
  - rewrite complete_map. assumption.
  - rewrite Erows, map_length. lia.
  - lia.
  - intros row x Hr Hx. rewrite Erows in Hr. apply in_map_iff in Hr. destruct Hr as (row' & <- & Hr). apply in_map_iff in Hx.
    destruct Hx as (x' & <- & Hx).
    match goal with H : forallb _ (concat _) = true |- _ => rewrite forallb_forall in H; specialize (H x') end.
    enough ((x' <? r)%N = true) by lia. match goal with H : In x' (concat _) -> _ |- _ => apply H end.
    apply in_concat. exists row'. split; assumption.
  - lia.
  - intros i Hi.
    match goal with H : forallb _ (upto q) = true |- _ => pose proof (upto_forall _ _ H (N.of_nat i) ltac:(lia)) as Hc end.
    cbv beta in Hc. rewrite filter_map, map_length.
    erewrite length_filter_ext; [|intros x; instantiate (1 := fun x => (x mod q =? N.of_nat i)%N); cbv beta;
      rewrite <- N2Nat.inj_mod; lia].
    lia.
  - lia.
  - lia.
  - lia.
  - rewrite <- N2Nat.inj_mod. lia.
Qed.

(** words of the links of the checks *)
Fixpoint cls_gen (m q i r W : N) (rows : list (list N)) : list N :=
  match rows with
  | [] => []
  | row :: rest => map (fun x => W * r + ((m - x / q) mod m) mod W)%N (filter (fun x => (x mod q =? i)%N) row)
                   ++ cls_gen m q i (N.succ r) W rest
  end.
Fixpoint distinct (l : list N) : bool :=
  match l with [] => true | x :: t => negb (existsb (N.eqb x) t) && distinct t end.
Lemma distinct_NoDup l : distinct l = true <-> NoDup l.
Proof.
  induction l as [|x l IH]; cbn [distinct]; [split; [constructor|reflexivity]|].
  rewrite andb_true_iff, negb_true_iff, IH. split.
  - intros [H1 H2]. constructor; [|exact H2]. intros Hin. enough (existsb (N.eqb x) l = true) by congruence.
    apply existsb_exists. exists x. split; [exact Hin|apply N.eqb_refl].
  - intros H. inversion H as [|? ? Hn Hd]. split; [|exact Hd]. apply not_true_iff_false. intros He. apply existsb_exists in He.
    destruct He as (y & Hy & E). apply N.eqb_eq in E. congruence.
Qed.
Lemma words_in_gen m n k max total deg len pos D i : let T := table_of m n k max total deg len pos in
  decoder_ok T (N.to_nat D) -> i < t_q T ->
  words_in T (N.to_nat D) i = map N.to_nat (cls_gen m ((n - k) / m) (N.of_nat i) 0 (m / D) (rows_gen len deg pos)).
Proof.
  intros T DOK Hi. pose proof (ok_table _ _ DOK) as OK.
  assert (t_q T = N.to_nat ((n - k) / m)) as Eq.
  { unfold t_q, t_R, T, table_of; cbn [t_M t_N t_K]. rewrite N2Nat.inj_div. f_equal. lia. }
  assert (rows_of T = map (map N.to_nat) (rows_gen len deg pos)) as Erows by (unfold rows_of, T, table_of; cbn [t_len t_deg t_pos]; apply rows_map).
  pose proof (ok_M _ OK) as HM. pose proof (ok_q _ OK) as Hq. pose proof (W_pos T _ DOK) as HW.
  assert (d_W T (N.to_nat D) = N.to_nat (m / D)) as EW by (unfold d_W, T, table_of; cbn [t_M]; symmetry; apply N2Nat.inj_div).
  unfold words_in. rewrite (ok_R _ OK).
  replace i with (t_q T * 0 + i) at 1 by lia.
  rewrite links_cls; [|exact HM|exact HM|exact Hi|intros row x Hr Hx; rewrite <- (ok_R _ OK); exact (ok_entries _ OK row x Hr Hx)].
  rewrite Erows. clear Erows. set (q := ((n - k) / m)%N) in *. rewrite Eq in *. clearbody q. rewrite map_map.
  change 0 with (N.to_nat 0) at 2. generalize 0%N at 1 2 as r.
  induction (rows_gen len deg pos) as [|row rest IH]; intros r; [reflexivity|].
  cbn [map cls cls_gen]. rewrite !map_app. rewrite <- N2Nat.inj_succ, IH. f_equal.
  rewrite filter_map, !map_map.
  erewrite length_filter_ext; [apply map_ext; intros x|intros x; rewrite <- N2Nat.inj_mod; lia].
  unfold word_of, slot, moved. change (t_M T) with (N.to_nat m) in *. rewrite EW.
  set (t := (N.to_nat m - N.to_nat x / N.to_nat q) mod N.to_nat m).
  assert (t < N.to_nat m) as Ht by (apply Nat.mod_upper_bound; lia).
  assert ((N.to_nat m * N.to_nat r + t) mod N.to_nat m = t) as E1.
  { rewrite Nat.add_comm, Nat.mul_comm, Nat.mod_add by lia. apply Nat.mod_small. exact Ht. }
  rewrite E1, Nat.add_0_r, (Nat.mod_small t) by exact Ht.
  replace (N.to_nat m * N.to_nat r + t - t + t) with (N.to_nat m * N.to_nat r + t) by lia. rewrite E1.
  rewrite (Nat.mul_comm (N.to_nat m)), Nat.div_add_l, (Nat.div_small t), Nat.add_0_r by lia.
  unfold t. rewrite N2Nat.inj_add, N2Nat.inj_mul. f_equal. rewrite !N2Nat.inj_mod, N2Nat.inj_sub, !N2Nat.inj_div. reflexivity.
Qed.
(** no two data links of a check belong to the same word *)
Definition chk_words (m n k : N) (deg len : list nat) (pos : list N) (D : N) : bool :=
  forallb (fun i => distinct (cls_gen m ((n - k) / m) i 0 (m / D) (rows_gen len deg pos))) (upto ((n - k) / m)).
Lemma map_to_nat_NoDup l : NoDup (map N.to_nat l) <-> NoDup l.
Proof. split; [apply NoDup_map_inv|]. apply FinFun.Injective_map_NoDup. intros x y H. apply N2Nat.inj. exact H. Qed.
Lemma chk_words_ok m n k max total deg len pos D : let T := table_of m n k max total deg len pos in
  decoder_ok T (N.to_nat D) -> chk_words m n k deg len pos D = true ->
  forall i, i < t_q T -> NoDup (words_in T (N.to_nat D) i).
Proof.
  intros T DOK H i Hi. unfold T. rewrite words_in_gen by assumption. apply map_to_nat_NoDup. apply distinct_NoDup.
  apply (upto_forall _ _ H (N.of_nat i)). unfold T, t_q, t_R, table_of in Hi. cbn [t_M t_N t_K] in Hi.
  rewrite <- N2Nat.inj_sub, <- N2Nat.inj_div in Hi. lia.
Qed.
Lemma chk_words_not m n k max total deg len pos D i : let T := table_of m n k max total deg len pos in
  decoder_ok T (N.to_nat D) -> (i < (n - k) / m)%N ->
  distinct (cls_gen m ((n - k) / m) i 0 (m / D) (rows_gen len deg pos)) = false ->
  exists i', i' < t_q T /\ ~ NoDup (words_in T (N.to_nat D) i').
Proof.
  intros T DOK Hi H. exists (N.to_nat i).
  assert (N.to_nat i < t_q T) as Hi'.
  { unfold T, t_q, t_R, table_of. cbn [t_M t_N t_K]. rewrite <- N2Nat.inj_sub, <- N2Nat.inj_div. lia. }
  split; [exact Hi'|]. unfold T. rewrite words_in_gen by assumption. rewrite N2Nat.id, map_to_nat_NoDup, <- distinct_NoDup. congruence.
Qed.
