(** Specification of an LDPC table (in the style of the DVB standards): which data bits take part in which check. *)
From Verif Require Import Cpp Model_ldpc.
Open Scope nat_scope.

(** the rows of a table: [LEN[g]] rows of [DEG[g]] consecutive entries of POS for each group [g], up to the
    terminating zero of LEN *)
Fixpoint cut_rows (count deg : nat) (pos : list nat) : list (list nat) :=
  match count with
  | O => []
  | S c => firstn deg pos :: cut_rows c deg (skipn deg pos)
  end.
Fixpoint table_rows (len deg pos : list nat) : list (list nat) :=
  match len, deg with
  | S l :: len', d :: deg' => cut_rows (S l) d pos ++ table_rows len' deg' (skipn (S l * d) pos)
  | _, _ => []
  end.

(** Row [r] belongs to the block of [M] data bits [M r, ..., M r + M - 1]: for each entry [x] of the row, bit
    [M r + t] takes part in check [(x + t q) mod R].  The data bits of check [p]: *)
Definition row_links (M q R p r : nat) (row : list nat) : list nat :=
  flat_map (fun x => map (fun t => M * r + t) (filter (fun t => (x + t * q) mod R =? p) (seq 0 M))) row.
Fixpoint links_from (M q R p r : nat) (rows : list (list nat)) : list nat :=
  match rows with
  | [] => []
  | row :: rest => row_links M q R p r row ++ links_from M q R p (S r) rest
  end.
Definition links (M q R : nat) (rows : list (list nat)) (p : nat) : list nat := links_from M q R p 0 rows.

(** product of the signs of the values at positions [l] *)
Definition sign_product (v : list Z) (l : list nat) : Z :=
  fold_right (fun i acc => Z.sgn (nth i v 0%Z) * acc)%Z 1%Z l.

(** Check [p]: the signs of its data bits, of its own parity and of the preceding parity multiply to +1. *)
Definition check_holds (M q R : nat) (rows : list (list nat)) (data parity : list Z) (p : nat) : Prop :=
  (sign_product data (links M q R rows p) * Z.sgn (nth p parity 0)
   * (if Nat.eqb p 0 then 1 else Z.sgn (nth (p - 1) parity 0)) = 1)%Z.
Definition all_checks (M q R : nat) (rows : list (list nat)) (data parity : list Z) : Prop :=
  forall p, p < R -> check_holds M q R rows data parity p.

Definition rows_of (T : table) : list (list nat) := table_rows (t_len T) (t_deg T) (t_pos T).
Definition satisfies (T : table) (data parity : list Z) : Prop :=
  all_checks (t_M T) (t_q T) (t_R T) (rows_of T) data parity.

(** LEN is zero terminated, DEG has an entry for every group and POS all the entries of all the rows *)
Fixpoint complete (len deg pos : list nat) : bool :=
  match len, deg with
  | O :: _, _ => true
  | S l :: len', d :: deg' => (S l * d <=? length pos) && complete len' deg' (skipn (S l * d) pos)
  | _, _ => false
  end.

(** A well-formed table: R is a multiple q M of M; there are K / M rows; all entries are below R; no check has more
    than LINKS_MAX_CN links (two of which are parities); positions fit into 16 bits. *)
Record table_ok (T : table) : Prop := {
  ok_M : 0 < t_M T;
  ok_q : 0 < t_q T;
  ok_R : t_R T = t_M T * t_q T;
  ok_complete : complete (t_len T) (t_deg T) (t_pos T) = true;
  ok_K : t_K T = t_M T * length (rows_of T);
  ok_K16 : (N.of_nat (t_K T) <= 65536)%N;
  ok_entries : forall row x, In row (rows_of T) -> In x row -> x < t_R T;
  ok_max : 2 <= t_max T <= 257;
  ok_links : forall n, n < t_q T ->
    length (filter (fun x => x mod t_q T =? n) (concat (rows_of T))) <= t_max T - 2
}.
(** What the decoder needs in addition: LINKS_TOTAL counts all links, at most 30 data links per check (the code
    asserts 32, but its masks are computed in type int), and the word size divides M. *)
Record decoder_ok (T : table) (D : nat) : Prop := {
  ok_table : table_ok T;
  ok_total : t_total T = t_M T * length (concat (rows_of T)) + 2 * t_R T - 1;
  ok_max32 : t_max T <= 32;
  ok_D : 2 <= D;
  ok_MD : t_M T mod D = 0
}.

(** Check node processing (offset min-sum with self-correction, 8 bit saturating arithmetic).
    [xs] are the values arriving at a check on its links; the message sent back on link [k] has the sign of the
    product of the other values (zero counts as positive) and the magnitude of the smallest of the others, each
    saturated to 127 and reduced by [beta]; it is limited to +-31. *)
Definition saturate (x : Z) : Z := Z.max (-128) (Z.min 127 x).
Definition others {A} (l : list A) (k : nat) : list A := firstn k l ++ skipn (S k) l.
Definition magnitude (beta x : Z) : Z := Z.max 0 (Z.min 127 (Z.abs x) - beta).
Definition positive (x : Z) : Z := if (x <? 0)%Z then (-1)%Z else 1%Z.
Definition node_sign (xs : list Z) : Z := fold_right (fun x s => positive x * s)%Z 1%Z xs.
Definition node_min (beta : Z) (xs : list Z) : Z := fold_right (fun x m => Z.min (magnitude beta x) m) 127%Z xs.
Definition node_message (beta : Z) (xs : list Z) (k : nat) : Z :=
  Z.max (-31) (Z.min 31 (node_sign (others xs k) * node_min beta (others xs k))).
(** a message that changes its sign is replaced by zero *)
Definition self_corrected (old new : Z) : Z := if (old * new <? 0)%Z then 0%Z else new.

(** The decoder object.  Data position [p] is held in lane [lane_of p] of vector [word_of p] of the array msg, parity
    position [p] in pty; these are the positions the decoder copies to and from the caller's buffers. *)
Definition lane (v : list (list Z)) (x n : nat) : Z := nth n (nth x v []) 0%Z.
Definition word_of (T : table) (D p : nat) : nat := d_W T D * (p / t_M T) + (p mod t_M T) mod d_W T D.
Definition lane_of (T : table) (D p : nat) : nat := (p mod t_M T) / d_W T D.
(** the words of the data links of check [p] *)
Definition words_in (T : table) (D p : nat) : list nat := map (word_of T D) (links (t_M T) (t_q T) (t_R T) (rows_of T) p).
Definition msg_view (T : table) (D : nat) (msg : list (list Z)) : list Z :=
  map (fun p => lane msg (word_of T D p) (lane_of T D p)) (seq 0 (t_K T)).
Definition pty_view (T : table) (D : nat) (pty : list (list Z)) : list Z :=
  map (fun p => lane pty (d_W T D * (p mod t_q T) + (p / t_q T) mod d_W T D) ((p / t_q T) / d_W T D)) (seq 0 (t_R T)).
Definition int8 (x : Z) : Prop := (-128 <= x <= 127)%Z.
Definition lanes (D L : nat) (a : list (list Z)) : Prop := length a = L /\ Forall (fun v => length v = D /\ Forall int8 v) a.
(** arrays of the declared sizes, with arbitrary contents *)
Record object_ok (T : table) (D : nat) (s : ldpc_state) : Prop := {
  ok_bnl : lanes D (d_BNL T D) (ls_bnl s);
  ok_msg : lanes D (d_MSG T D) (ls_msg s);
  ok_pty : lanes D (d_PTY T D) (ls_pty s);
  ok_wd : length (ls_wd s) = d_PTY T D
}.

(** Check [q (W n + j) + i] is processed in lane [n] of layer [(i, j)].  The number of data links is the same for all
    the checks of a layer; [link_start] and [message_start] count the links of all earlier layers, without and with
    the two parity links. *)
Definition data_links (T : table) (i : nat) : nat := length (links (t_M T) (t_q T) (t_R T) (rows_of T) i).
Definition link_start (T : table) (D i j : nat) : nat :=
  d_W T D * fold_right (fun i' s => data_links T i' + s) 0 (seq 0 i) + j * data_links T i.
Definition message_start (T : table) (D i j : nat) : nat := link_start T D i j + 2 * (d_W T D * i + j).

(** The write disable mask of a layer after one iteration.  [words] are the words of the layer's data links, in the
    order in which the decoder keeps them.  Links that stand next to each other and have the same word take turns,
    and so (this is what the program does, see C57) do the last two links, whatever their words. *)
Definition take_turns (words : list nat) (k : nat) : Prop :=
  S (S k) = length words \/ nth k words 0 = nth (S k) words 0.
(** links [a .. b] form one group *)
Definition group (words : list nat) (a b : nat) : Prop :=
  a <= b < length words /\ (forall k, a <= k < b -> take_turns words k) /\
  (a = 0 \/ ~ take_turns words (a - 1)) /\ (S b = length words \/ ~ take_turns words b).
(** within each group every link takes over the bit of the next one and the last link that of the first *)
Definition turned (words : list nat) (mask mask' : N) : Prop :=
  (forall a b, group words a b ->
     (forall k, a <= k < b -> N.testbit mask' (N.of_nat k) = N.testbit mask (N.of_nat (S k))) /\
     N.testbit mask' (N.of_nat b) = N.testbit mask (N.of_nat a)) /\
  (forall k, length words <= k -> N.testbit mask' (N.of_nat k) = N.testbit mask (N.of_nat k)).
(** after [n] iterations *)
Fixpoint turned_times (n : nat) (words : list nat) (mask mask' : N) : Prop :=
  match n with O => mask' = mask | S n => exists m, turned words mask m /\ turned_times n words m mask' end.
