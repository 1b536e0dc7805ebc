(** Property C26: cauchy_prime_field_erasure_coding.hh. *)
From Coq Require Import ZifyBool ZifyNat ZifyN Znumtheory.
From Verif Require Import Cpp Lib_list Model_pf Model_crs Model_cpf Lib_orbit Lib_prime Lib_field Lib_poly Proof_pf Proof_pffield Proof_cpf.
Local Open Scope N_scope.

(** The condition on prime and word: the largest product of one reduced value and three factors of the delayed reductions fits TYPE.
    An IO symbol can hold everything below P-1.  When P = 2^wi + 1 (both shipped instances) the condition [x < P /\ x < 2^wi] on the data
    is [x < 2^wi]: any content of an IO array. *)
Definition cpf_size (w wi P : N) (ML : nat) : Prop :=
  prime (Z.of_N P) /\ (P - 1) * (P - 1) * (P - 2) * (P - 3) < 2 ^ w /\ P - 1 <= 2 ^ wi /\ N.of_nat ML < P - 1.
Definition cpf_ids (P : N) (cnt : nat) (ids : list N) : Prop :=
  length ids = cnt /\ NoDup ids /\ forall id, In id ids -> N.of_nat cnt <= id < P / 2.
(** an object of the class, in any state *)
Definition cpf_object (ML : nat) (st : cpf) : Prop := length (cp_temp st) = ML.

Lemma ids_P5 P cnt ids : cpf_ids P cnt ids -> cnt <> 0%nat -> prime (Z.of_N P) -> 5 <= P.
Proof.
  intros (L & _ & R) Hc HP. destruct ids as [|x ids]; [cbn in L; lia|]. specialize (R x (or_introl eq_refl)). pose proof (N.div_mod P 2 ltac:(discriminate)).
  destruct (N.lt_ge_cases P 5) as [H5|H5]; [exfalso|exact H5]. assert (E4 : P = 4) by lia. subst P. destruct HP as (_ & HR).
  specialize (HR 2%Z ltac:(lia)). apply Zgcd_1_rel_prime in HR. discriminate.
Qed.

Theorem C26_any_blocks_recover : forall w wi P ML ids cnt len data blocks0 subs0 data0 enc dec,
  cpf_size w wi P ML -> cpf_ids P cnt ids -> (len <= ML)%nat -> cpf_object ML enc -> cpf_object ML dec ->
  Forall (fun x => x < P /\ x < 2 ^ wi) data ->
  length data = (len * cnt)%nat -> length blocks0 = (len * cnt)%nat -> length data0 = (len * cnt)%nat -> length subs0 = cnt ->
  exists blocks subs enc' dec',
    cpf_encode_all w P wi ML data blocks0 subs0 ids len cnt enc = Ok (blocks, subs, enc') /\
    length blocks = (len * cnt)%nat /\ length subs = cnt /\
    Forall (fun x => x < P - 1 /\ x < 2 ^ wi) blocks /\ Forall (fun x => x < P - 1 /\ x < 2 ^ wi) subs /\
    cpf_decode_all w P wi ML data0 blocks subs ids len cnt dec = Ok (data, dec').
Proof.
  intros w wi P ML ids cnt len data blocks0 subs0 data0 enc dec (HP & HS & HWI & HML) HI HLM LE LD Hd Ld Lb Ld0 Ls.
  destruct (Nat.eq_dec cnt 0) as [->|Nc].
  { rewrite Nat.mul_0_r in *. destruct data, blocks0, data0, subs0; try discriminate. exists [], [], enc, dec. repeat split; constructor. }
  pose proof (ids_P5 P cnt ids HI Nc HP) as P5. destruct HI as (LI & ND & RI).
  assert (HdP : Forall (fun x => x < P) data) by (eapply Forall_impl; [|exact Hd]; cbv beta; tauto).
  destruct (encode_all_ok w P HP P5 HS ids cnt LI RI len ML HLM wi HWI HML data blocks0 subs0 enc LE HdP ltac:(lia) Lb Ls) as (blocks & subs & enc' & E & _ & LB & LS & SE).
  destruct (decode_all_ok w P HP P5 HS ids cnt LI ND RI len ML HLM wi HWI HML data0 data blocks subs dec LD Hd Ld Ld0 LB LS SE) as (dec' & E').
  exists blocks, subs, enc', dec'. split; [exact E|]. split; [exact LB|]. split; [exact LS|]. split; [|split; [|exact E']].
  - apply Forall_nth. intros p d Hp. rewrite (nth_indep _ d 0) by exact Hp. assert (Nl : len <> 0%nat) by (intros ->; cbn in LB; lia).
    rewrite (Nat.div_mod p len Nl). destruct (SE (p / len)%nat) as (_ & R); [apply Nat.div_lt_upper_bound; [exact Nl|lia]|].
    destruct (R (p mod len)%nat) as (R1 & _); [apply Nat.mod_upper_bound; exact Nl|]. lia.
  - apply Forall_nth. intros p d Hp. rewrite (nth_indep _ d 0) by exact Hp. destruct (SE p) as (R & _); [lia|]. lia.
Qed.
Print Assumptions C26_any_blocks_recover.

(** No overflow: computing with a word of any other sufficient size, for example one so wide that nothing could overflow,
    gives the same blocks, substitutes and data. *)
Theorem C26_no_overflow_encode : forall w w' wi P ML ids cnt len data block boff k enc,
  cpf_size w wi P ML -> cpf_size w' wi P ML -> cpf_ids P cnt ids -> (len <= ML)%nat -> cpf_object ML enc ->
  Forall (fun x => x < P) data -> (len * cnt <= length data)%nat -> (boff + len <= length block)%nat -> (k < cnt)%nat ->
  exists block' sub st1 st2,
    cpf_encode w P wi ML data block boff (N.to_nat (nth k ids 0)) len cnt enc = Ok (block', sub, st1) /\
    cpf_encode w' P wi ML data block boff (N.to_nat (nth k ids 0)) len cnt enc = Ok (block', sub, st2).
Proof.
  intros w w' wi P ML ids cnt len data block boff k enc (HP & HS & HWI & HML) (_ & HS' & _ & _) HI HLM LE Hd Ld Lb Hk.
  pose proof (ids_P5 P cnt ids HI ltac:(lia) HP) as P5. destruct HI as (LI & ND & RI).
  destruct (encode_ok w P HP P5 HS ids cnt LI RI len ML HLM wi HWI HML k data block boff enc Hk LE Hd Ld Lb) as (o & sub & st & tv & E & LT & HT & EF & Hs & LO & HO & HV).
  destruct (encode_ok w' P HP P5 HS' ids cnt LI RI len ML HLM wi HWI HML k data block boff enc Hk LE Hd Ld Lb) as (o' & sub' & st' & tv' & E' & LT' & HT' & EF' & Hs' & LO' & HO' & HV').
  assert (TV : forall t, (t < len)%nat -> tv t = tv' t).
  { intros t Ht. destruct (HV t Ht) as (_ & _ & B & I1). destruct (HV' t Ht) as (_ & _ & B' & I1'). apply (Z_inj P HP); [exact B|exact B'|]. rewrite I1, I1'. reflexivity. }
  assert (ES : sub = sub').
  { enough (Ok sub = Ok sub') by congruence. rewrite <- EF, <- EF'. unfold cpf_find_unused. f_equal. apply for_up_ext.
    intros i u Hi. rewrite (rdu_nth _ _ _ (HT i ltac:(lia))), (rdu_nth _ _ _ (HT' i ltac:(lia))). rewrite (TV i) by lia. reflexivity. }
  exists o, sub, st, st'. split; [exact E|]. rewrite ES. replace o with o'; [exact E'|]. apply (list_ext _ _ 0); [congruence|]. intros p Hp.
  destruct (Nat.lt_ge_cases p boff) as [H1|H1]; [rewrite HO, HO' by lia; reflexivity|].
  destruct (Nat.lt_ge_cases p (boff + len)) as [H2|H2]; [|rewrite HO, HO' by lia; reflexivity].
  replace p with (boff + (p - boff))%nat by lia. destruct (HV (p - boff)%nat ltac:(lia)) as (-> & _). destruct (HV' (p - boff)%nat ltac:(lia)) as (-> & _).
  rewrite ES, TV by lia. reflexivity.
Qed.
Print Assumptions C26_no_overflow_encode.

Theorem C26_no_overflow_decode : forall w w' wi P ML ids cnt len buf blocks subs doff i dec,
  cpf_size w wi P ML -> cpf_size w' wi P ML -> cpf_ids P cnt ids -> (len <= ML)%nat -> cpf_object ML dec ->
  Forall (fun x => x < P) blocks -> (len * cnt <= length blocks)%nat -> length subs = cnt -> (doff + len <= length buf)%nat -> (i < cnt)%nat ->
  exists buf' st1 st2,
    cpf_decode w P wi ML buf doff blocks subs ids i len cnt dec = Ok (buf', st1) /\
    cpf_decode w' P wi ML buf doff blocks subs ids i len cnt dec = Ok (buf', st2).
Proof.
  intros w w' wi P ML ids cnt len buf blocks subs doff i dec (HP & HS & HWI & HML) (_ & HS' & _ & _) HI HLM LE Hb Lb Ls Ld Hi.
  pose proof (ids_P5 P cnt ids HI ltac:(lia) HP) as P5. destruct HI as (LI & ND & RI).
  assert (HU : forall k t, (k < cnt)%nat -> (t < len)%nat -> unsub P len blocks subs k t < P).
  { intros k t Hk Ht. unfold unsub. destruct (_ =? _); [lia|]. apply (proj1 (Forall_nth (fun x => x < P) blocks) Hb). nia. }
  destruct (decode_ok w P HP P5 HS ids cnt LI ND RI len ML HLM wi HWI HML i buf doff blocks subs dec Hi LE Lb Ls HU Ld) as (o & st & E & _ & LO & HO & HV).
  destruct (decode_ok w' P HP P5 HS' ids cnt LI ND RI len ML HLM wi HWI HML i buf doff blocks subs dec Hi LE Lb Ls HU Ld) as (o' & st' & E' & _ & LO' & HO' & HV').
  exists o, st, st'. split; [exact E|]. replace o with o'; [exact E'|]. apply (list_ext _ _ 0); [congruence|]. intros p Hp.
  destruct (Nat.lt_ge_cases p doff) as [H1|H1]; [rewrite HO, HO' by lia; reflexivity|].
  destruct (Nat.lt_ge_cases p (doff + len)) as [H2|H2]; [|rewrite HO, HO' by lia; reflexivity].
  replace p with (doff + (p - doff))%nat by lia. destruct (HV (p - doff)%nat ltac:(lia)) as (v & -> & Bv & Iv). destruct (HV' (p - doff)%nat ltac:(lia)) as (v' & -> & Bv' & Iv').
  f_equal. symmetry. apply (Z_inj P HP); [exact Bv|exact Bv'|]. rewrite Iv, Iv'. reflexivity.
Qed.
Print Assumptions C26_no_overflow_decode.

(** refused arguments *)
Theorem C26_bad_arguments_abort : forall w wi P ML data block boff id len cnt st,
  (id < cnt)%nat \/ P / 2 <= N.of_nat id \/ (ML < len)%nat -> cpf_encode w P wi ML data block boff id len cnt st = Abort.
Proof.
  intros w wi P ML data block boff id len cnt st H. unfold cpf_encode.
  destruct (Nat.leb_spec cnt id) as [H1|H1], (N.ltb_spec (N.of_nat id) (P / 2)) as [H2|H2]; try reflexivity. cbn [andb assert_ bind].
  destruct (Nat.leb_spec len ML) as [H3|H3]; [lia|reflexivity].
Qed.
Print Assumptions C26_bad_arguments_abort.

(** both instances of the regression test satisfy the size condition *)
Example C26_sizes : cpf_size 32 8 257 255 /\ cpf_size 64 16 65537 1024.
Proof.
  split; (split; [apply is_prime_ok; vm_compute; reflexivity|]); (split; [vm_compute; reflexivity|]); (split; [vm_compute; congruence|]); vm_compute; reflexivity.
Qed.
Example C26_nonvacuous :
  exists blocks subs enc' dec',
   cpf_encode_all 32 257 8 255 [255; 0; 7; 1; 254; 9] [0; 0; 0; 0; 0; 0] [0; 0] [4; 2] 3 2 (cpf_new 255) = Ok (blocks, subs, enc') /\
   cpf_decode_all 32 257 8 255 [1; 1; 1; 1; 1; 1] blocks subs [4; 2] 3 2 (cpf_new 255) = Ok ([255; 0; 7; 1; 254; 9], dec').
Proof. eexists _, _, _, _. split; vm_compute; reflexivity. Qed.
(** 157 / 100 = 256: the symbol that does not fit is sent as the unused value 1 *)
Example C26_substitute :
  exists st st', cpf_encode 32 257 8 255 [157; 0] [9; 9] 0 100 2 1 (cpf_new 255) = Ok ([1; 0], 1, st) /\
    cpf_decode 32 257 8 255 [9; 9] 0 [1; 0] [1] [100] 0 2 1 (cpf_new 255) = Ok ([157; 0], st').
Proof. eexists _, _. split; vm_compute; reflexivity. Qed.
