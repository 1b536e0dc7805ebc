(** Specification for C92: turning a word by a codeword, and arithmetic that does not saturate. *)
From Verif Require Import Cpp Model_ldpc Spec_ldpc.
Open Scope nat_scope.

(** position by position *)
Definition product (a b : list Z) : list Z := map (fun p => (fst p * snd p)%Z) (combine a b).
(** signs of a codeword *)
Definition codeword (T : table) (data parity : list Z) : Prop :=
  length data = t_K T /\ length parity = t_R T /\ Forall (fun x => x = 1%Z \/ x = (-1)%Z) data /\
  Forall (fun x => x = 1%Z \/ x = (-1)%Z) parity /\ satisfies T data parity.

(** the object after the buffers have been copied into it: no messages yet *)
Definition loaded (T : table) (D : nat) (wd : list N) (message parity : list Z) (s : ldpc_state) : Prop :=
  object_ok T D s /\ msg_view T D (ls_msg s) = message /\ pty_view T D (ls_pty s) = parity /\
  (forall y n, lane (ls_bnl s) y n = 0%Z) /\ ls_wd s = wd.

Section Layer.
Variable T : table.
Variable D : nat.
Variable beta : Z.
Variable C : ldpc_const.
Variable s : ldpc_state.
(** layer [(i, j)], lane [n]: check [q (W n + j) + i] *)
Variables i j n : nat.
Definition check_at : nat := t_q T * (d_W T D * n + j) + i.
(** word and lane shift of data link [k] *)
Definition link_place (k : nat) : nat * nat := nth (link_start T D i j + k) (lc_loc C) (0, 0).
(** the value on link [k] of the check: data, own parity, preceding parity (127 if there is none) *)
Definition link_value (k : nat) : Z :=
  if k <? data_links T i then lane (ls_msg s) (fst (link_place k)) ((n + snd (link_place k)) mod D)
  else if k =? data_links T i then nth check_at (pty_view T D (ls_pty s)) 0%Z
  else if check_at =? 0 then 127%Z else nth (check_at - 1) (pty_view T D (ls_pty s)) 0%Z.
Definition old_message (k : nat) : Z := lane (ls_bnl s) (message_start T D i j + k) n.
Definition incoming (k : nat) : Z := saturate (link_value k - old_message k).
Definition outgoing (k : nat) : Z :=
  self_corrected (old_message k) (node_message beta (map incoming (seq 0 (data_links T i + 2))) k).
(** what the program limits to -128 .. 127 is within -127 .. 127 before; the link that stands for the missing parity
    before the first does not count *)
Definition link_unsaturated (k : nat) : Prop :=
  (k = data_links T i + 1 /\ check_at = 0) \/
  ((-127 <= link_value k - old_message k <= 127)%Z /\ (-127 <= incoming k + outgoing k <= 127)%Z).
End Layer.
Definition unsaturated (T : table) (D : nat) (beta : Z) (C : ldpc_const) (s : ldpc_state) (i j : nat) : Prop :=
  forall k n, k < data_links T i + 2 -> n < D -> link_unsaturated T D beta C s i j n k.

(** the object after [m] layers, [q W] of them in each iteration *)
Fixpoint state_after (T : table) (D : nat) (beta : Z) (C : ldpc_const) (s0 : ldpc_state) (m : nat) : option ldpc_state :=
  match m with
  | O => Some s0
  | S m =>
    match state_after T D beta C s0 m with
    | Some s =>
      let i := (m / d_W T D) mod t_q T in let j := m mod d_W T D in
      match ldpc_layer T D beta C (data_links T i) i j (message_start T D i j, link_start T D i j, s) with
      | Ok (_, s') => Some s'
      | _ => None
      end
    | None => None
    end
  end.
(** [m] layers were processed because some check failed at the beginning of every iteration so far *)
Definition still_trying (T : table) (D : nat) (beta : Z) (C : ldpc_const) (s0 : ldpc_state) (m : nat) : Prop :=
  forall t s, t * (t_q T * d_W T D) <= m -> state_after T D beta C s0 (t * (t_q T * d_W T D)) = Some s ->
  ~ satisfies T (msg_view T D (ls_msg s)) (pty_view T D (ls_pty s)).
(** decoding the values loaded into [s0] with at most [trials] iterations saturates nowhere *)
Definition never_saturates (T : table) (D : nat) (beta : Z) (C : ldpc_const) (s0 : ldpc_state) (trials : nat) : Prop :=
  forall m s, m < trials * (t_q T * d_W T D) -> still_trying T D beta C s0 m -> state_after T D beta C s0 m = Some s ->
  unsaturated T D beta C s ((m / d_W T D) mod t_q T) (m mod d_W T D).
