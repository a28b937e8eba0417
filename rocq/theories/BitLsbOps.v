(** * Sessions of an LSB-first bit writer (C09). *)
From Verif Require Import Base SerSpec SerProofs Bit BitSpec BitProofs BitLsb BitLsbSpec.
From Coq Require Import ZifyNat ZifyN ZifyBool.

(** [c] bits have gone in. *)
Definition at_bit (c : nat) (st : bw) : Prop :=
  bw_inv st /\ bw_order st = LsbFirst /\ (N.to_nat (bit_count st) = c mod 8)%nat.

Lemma wrote_at c st m l : at_bit c st -> wrote m st l ->
  exists bytes st', emits m bytes (Ok st') /\ at_bit (c + length l) st' /\ pending st ++ l = bytes_bits LsbFirst bytes ++ pending st'.
Proof.
  intros (I & O & C) (bytes & st' & E & I' & O' & U & P). rewrite O in P. exists bytes, st'. split; [exact E|]. split; [|exact P].
  split; [exact I'|]. split; [congruence|]. apply (f_equal (@length bool)) in P. rewrite !app_length, bytes_bits_length in P. unfold pending in P. rewrite !pend_length, C in P.
  destruct I' as [I' _]. rewrite <- Nat.add_mod_idemp_l by lia. rewrite P. rewrite Nat.add_comm, Nat.mul_comm, Nat.mod_add by lia. symmetry. apply Nat.mod_small. lia.
Qed.
Lemma lsb_op c st op : at_bit c st -> op_ok op -> (whole op -> (c mod 8 = 0)%nat) -> wrote (do_op op st) st (op_bits LsbFirst op).
Proof.
  intros (I & O & C) K W. destruct op as [b|n|bits]; cbn [do_op op_bits whole] in *.
  - now apply wrote_bit.
  - rewrite <- O. apply wrote_byte; [exact I|exact K|]. right. specialize (W Logic.I). lia.
  - destruct (from_slice_spec bits (bw_order st)) as [a [E _]]. rewrite E. eapply wrote_arr; [exact I|exact E|]. right.
    destruct (Nat.lt_ge_cases (length bits) 8) as [L|L]; [now right|left]. specialize (W L). lia.
Qed.
Lemma lsb_misfit c st op : at_bit c st -> op_ok op -> whole op -> (c mod 8 <> 0)%nat -> emits (do_op op st) [] Panic.
Proof.
  intros (I & O & C) K W Z. assert (B : forall n, emits (bw_write_byte n st) [] Panic).
  { intros n. unfold bw_write_byte. destruct (N.eqb_spec (bit_count st) 0); [lia|]. rewrite O. cbn [bo_eqb negb]. apply emits_panic. }
  destruct op as [b|n|bits]; cbn [do_op whole] in *; [contradiction|apply B|].
  destruct (from_slice_spec bits (bw_order st)) as (a & E & Ho & Hc & Hf & Hb). rewrite E. unfold bw_write_arr. apply emits_bind_panic.
  destruct (full_bytes a) as [|x fb] eqn:EF.
  - apply (f_equal (@length bool)) in Hb. rewrite app_length, pend_length in Hb. cbn [bytes_bits flat_map length] in Hb. lia.
  - cbn [bw_iter]. apply emits_bind_panic. apply B.
Qed.
Lemma lsb_iter ops : forall c st, Forall op_ok ops -> at_bit c st ->
  (fits c ops -> wrote (do_ops ops st) st (flat_map (op_bits LsbFirst) ops)) /\ (~ fits c ops -> exists bytes, emits (do_ops ops st) bytes Panic).
Proof.
  induction ops as [|op ops IH]; intros c st K A.
  - cbn [fits flat_map]. split; [|tauto]. intros _. apply wrote_ret. exact (proj1 A).
  - inversion K as [|? ? K1 K2]; subst. cbn [fits flat_map]. unfold do_ops in *. cbn [bw_iter].
    assert (D : whole op \/ ~ whole op). { destruct op; cbn [whole]; try tauto. lia. }
    assert (D2 : (c mod 8 = 0)%nat \/ (c mod 8 <> 0)%nat) by lia.
    assert (X : (whole op -> (c mod 8 = 0)%nat) \/ (whole op /\ (c mod 8 <> 0)%nat)) by tauto. clear D D2.
    destruct X as [X|[X Z]].
    + pose proof (lsb_op c st op A K1 X) as W. destruct (wrote_at c st _ _ A W) as (b1 & st1 & E1 & A1 & P1).
      destruct (IH _ st1 K2 A1) as [Y N]. split.
      * intros [_ F]. destruct (Y F) as (b2 & st2 & E2 & I2 & O2 & U2 & P2).
        destruct W as (b1' & st1' & E1' & I1 & O1 & U1 & P1'). assert (Q : st1' = st1 /\ b1' = b1).
        { pose proof (E1 vec_writer) as V1. pose proof (E1' vec_writer) as V2. rewrite V1 in V2. unfold put, io_bind, io_lift, write_all in V2. cbn in V2. split; congruence. }
        destruct Q as [-> ->]. exists (b1 ++ b2), st2. split; [exact (emits_bind _ E1 E2)|]. split; [exact I2|]. split; [congruence|]. split; [apply Forall_app; auto|].
        rewrite app_assoc, P1', <- app_assoc, P2. unfold bytes_bits. rewrite flat_map_app, <- app_assoc. now rewrite O1.
      * intros NF. destruct (N (fun F => NF (conj X F))) as (b2 & E2). exists (b1 ++ b2). exact (emits_bind _ E1 E2).
    + split; [intros [F _]; specialize (F X); lia|]. intros _. exists []. apply emits_bind_panic. exact (lsb_misfit c st op A K1 X Z).
Qed.
Lemma at_start : at_bit 0 (bw_new LsbFirst).
Proof. split; [apply bw_new_inv|]. split; reflexivity. Qed.

Theorem lsb_sessions ops : Forall op_ok ops -> let bits := flat_map (op_bits LsbFirst) ops in
  (fits 0 ops -> (length bits mod 8 = 0)%nat -> exists out, run_vec (session LsbFirst ops) = Ok out /\ bytes_bits LsbFirst out = bits)
  /\ (~ fits 0 ops -> run_vec (session LsbFirst ops) = Panic).
Proof.
  intros K bits. destruct (lsb_iter ops 0 (bw_new LsbFirst) K at_start) as [Y N]. split.
  - intros F Z. destruct (wrote_at 0 _ _ _ at_start (Y F)) as (bytes & st & E & A & P). exists bytes.
    assert (Hz : bit_count st = 0%N). { destruct A as (_ & _ & A). fold bits in A. rewrite Nat.add_0_l, Z in A. lia. } split.
    + unfold run_vec, session. rewrite (@put_bind_run _ _ _ _ bytes st [] (Ok st)).
      * rewrite app_nil_r. reflexivity.
      * exact E.
      * intros w' Hw'. rewrite (pad_and_flush_run st w' Hw'). unfold pad_bytes. rewrite Hz. reflexivity.
    + fold bits in P. change (pending (bw_new LsbFirst)) with (@nil bool) in P. cbn [app] in P. rewrite P. unfold pending. rewrite Hz. change (N.to_nat 0) with 0%nat. now rewrite pend_0, app_nil_r.
  - intros F. destruct (N F) as (bytes & E). assert (E2 : emits (session LsbFirst ops) bytes Panic) by (apply emits_bind_panic; exact E). exact (emits_run_vec E2).
Qed.
