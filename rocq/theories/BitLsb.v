(** * What the flush of an LSB-first writer writes. *)
From Verif Require Import Base SerSpec SerProofs Bit BitSpec BitProofs.
From Coq Require Import ZifyNat ZifyN ZifyBool.

Lemma iter_snoc (l : list bit_op) x : forall st w, bw_iter do_op (l ++ [x]) st w = io_bind (bw_iter do_op l st) (do_op x) w.
Proof.
  induction l as [|op l IH]; intros st w; cbn [bw_iter app].
  - unfold io_bind, io_ret. destruct (do_op x st w) as [[]]; reflexivity.
  - unfold io_bind. destruct (do_op op st w) as [[st1| |] w1]; try reflexivity. rewrite IH. unfold io_bind. reflexivity.
Qed.
(** The byte register holds the last eight bits. *)
Definition window (bits : list bool) : N := fold_left (fun n b => push_bit n b LsbFirst) bits 0%N.
Lemma window_snoc bits b : window (bits ++ [b]) = push_bit (window bits) b LsbFirst.
Proof. unfold window. now rewrite fold_left_app. Qed.
Lemma push_lsb n b : u8_ok n -> u8_ok (push_bit n b LsbFirst) /\ byte_bits LsbFirst (push_bit n b LsbFirst) = tl (byte_bits LsbFirst n) ++ [b].
Proof.
  intros H. assert (F : forallb (fun k => forallb (fun b => (push_bit (N.of_nat k) b LsbFirst <? 256)%N
     && (if list_eq_dec Bool.bool_dec (byte_bits LsbFirst (push_bit (N.of_nat k) b LsbFirst)) (tl (byte_bits LsbFirst (N.of_nat k)) ++ [b]) then true else false)) [true; false]) (seq 0 256) = true) by (vm_compute; reflexivity).
  rewrite forallb_forall in F. specialize (F (N.to_nat n)). rewrite N2Nat.id in F. unfold u8_ok in *. assert (I : In (N.to_nat n) (seq 0 256)) by (apply in_seq; lia). specialize (F I).
  rewrite forallb_forall in F. specialize (F b ltac:(destruct b; cbn; auto)). destruct (list_eq_dec _ _ _) as [E|]; [|lia]. split; [lia|exact E].
Qed.
Lemma window_bits bits : u8_ok (window bits) /\ byte_bits LsbFirst (window bits) = skipn (length bits) (repeat false 8 ++ bits).
Proof.
  induction bits as [|b bits [IH1 IH2]] using rev_ind; [split; [unfold u8_ok; cbn; lia|reflexivity]|]. rewrite window_snoc. destruct (push_lsb (window bits) b IH1) as [P1 P2].
  split; [exact P1|]. rewrite P2, IH2, app_length. cbn [length]. rewrite Nat.add_1_r. rewrite app_assoc. set (l := repeat false 8 ++ bits).
  assert (L : length l = (8 + length bits)%nat) by (unfold l; rewrite app_length; reflexivity). clearbody l. rewrite skipn_app. replace (S (length bits) - length l)%nat with 0%nat by lia. cbn [skipn].
  f_equal. clear -L. revert l L. generalize (length bits) as k. induction k as [|k IH]; intros [|x l] L; cbn in L; try lia; [reflexivity|]. cbn [skipn]. cbn [skipn] in IH. rewrite IH by lia. now destruct l.
Qed.
Lemma lsb_state bits : exists bytes, emits (do_ops (map OpBit bits) (bw_new LsbFirst)) bytes (Ok (mkBW (window bits) (N.of_nat (length bits) mod 8) LsbFirst))
  /\ bytes_bits LsbFirst bytes = firstn (length bits - length bits mod 8) bits.
Proof.
  induction bits as [|b bits (bytes & E & B)] using rev_ind; [exists []; split; [apply emits_ret|reflexivity]|].
  rewrite map_app. cbn [map]. rewrite app_length. cbn [length].
  assert (M : (length bits mod 8 < 8)%nat) by (apply Nat.mod_upper_bound; lia).
  assert (D : length bits = (8 * (length bits / 8) + length bits mod 8)%nat) by (apply Nat.div_mod; lia).
  destruct (Nat.eq_dec (length bits mod 8) 7) as [Z|Z].
  - exists (bytes ++ [window (bits ++ [b])]). assert (Z1 : ((length bits + 1) mod 8 = 0)%nat) by (rewrite <- Nat.add_mod_idemp_l, Z by lia; reflexivity). split.
    + eapply emits_ext; [intros w; apply iter_snoc|]. eapply emits_bind; [exact E|]. cbn [do_op]. unfold bw_write. cbn [curr_bits bit_count bw_order]. rewrite <- window_snoc.
      replace (N.of_nat (length bits) mod 8 + 1 =? 8)%N with true by lia. replace (N.of_nat (length bits + 1) mod 8)%N with 0%N by lia. apply emits_write_ret.
    + unfold bytes_bits in *. rewrite flat_map_app, B. cbn [flat_map]. rewrite app_nil_r, (proj2 (window_bits _)), app_length, Z1. cbn [length].
      rewrite Nat.sub_0_r, firstn_all2 with (n := (length bits + 1)%nat) by (rewrite app_length; cbn; lia).
      rewrite skipn_app. rewrite repeat_length. replace (skipn (length bits + 1) (repeat false 8)) with (@nil bool) by (symmetry; apply skipn_all2; rewrite repeat_length; lia). cbn [app].
      rewrite skipn_app. replace (length bits + 1 - 8 - length bits)%nat with 0%nat by lia. cbn [skipn]. rewrite app_assoc. f_equal.
      replace (length bits + 1 - 8)%nat with (length bits - length bits mod 8)%nat by lia. apply firstn_skipn.
  - exists bytes. assert (Z1 : ((length bits + 1) mod 8 = length bits mod 8 + 1)%nat) by (rewrite <- Nat.add_mod_idemp_l by lia; apply Nat.mod_small; lia). split.
    + rewrite <- (app_nil_r bytes). eapply emits_ext; [intros w; apply iter_snoc|]. eapply emits_bind; [exact E|]. cbn [do_op]. unfold bw_write. cbn [curr_bits bit_count bw_order]. rewrite <- window_snoc.
      replace (N.of_nat (length bits) mod 8 + 1 =? 8)%N with false by lia. replace (N.of_nat (length bits + 1) mod 8)%N with (N.of_nat (length bits) mod 8 + 1)%N by lia. apply emits_ret.
    + rewrite B, Z1. replace (length bits + 1 - (length bits mod 8 + 1))%nat with (length bits - length bits mod 8)%nat by lia. rewrite firstn_app.
      replace (length bits - length bits mod 8 - length bits)%nat with 0%nat by lia. cbn [firstn]. now rewrite app_nil_r.
Qed.
Lemma shl_lsb n r : u8_ok n -> (0 < r < 8)%nat -> byte_bits LsbFirst (shl8 n (8 - N.of_nat r)) = repeat false (8 - r) ++ firstn r (byte_bits LsbFirst n).
Proof.
  intros H Hr. assert (F : forallb (fun k => forallb (fun r => if list_eq_dec Bool.bool_dec (byte_bits LsbFirst (shl8 (N.of_nat k) (8 - N.of_nat r))) (repeat false (8 - r) ++ firstn r (byte_bits LsbFirst (N.of_nat k))) then true else false)
    [1; 2; 3; 4; 5; 6; 7]%nat) (seq 0 256) = true) by (vm_compute; reflexivity).
  rewrite forallb_forall in F. specialize (F (N.to_nat n)). rewrite N2Nat.id in F. unfold u8_ok in *. assert (I : In (N.to_nat n) (seq 0 256)) by (apply in_seq; lia). specialize (F I).
  rewrite forallb_forall in F. specialize (F r ltac:(cbn; lia)). destruct (list_eq_dec _ _ _) as [E|]; [exact E|discriminate].
Qed.
Theorem lsb_flush bits : let r := (length bits mod 8)%nat in r <> 0%nat ->
  exists out, run_vec (session LsbFirst (map OpBit bits)) = Ok out
  /\ bytes_bits LsbFirst out = firstn (length bits - r) bits ++ repeat false (8 - r) ++ firstn r (skipn (length bits) (repeat false 8 ++ bits)).
Proof.
  intros r Hr. destruct (lsb_state bits) as (bytes & E & B). assert (M : (length bits mod 8 < 8)%nat) by (apply Nat.mod_upper_bound; lia). fold r in M, B.
  destruct (window_bits bits) as [W1 W2]. set (last := shl8 (window bits) (8 - N.of_nat (length bits) mod 8)). exists (bytes ++ [last]).
  split.
  - assert (Em : forall w, flush_fails w = false -> bw_pad_and_flush (mkBW (window bits) (N.of_nat (length bits) mod 8) LsbFirst) w = put [last] (Ok (mkBW 0 0 LsbFirst)) w).
    { intros w Hw. unfold bw_pad_and_flush. cbn [bit_count curr_bits bw_order]. replace (N.of_nat (length bits) mod 8 =? 0)%N with false by (unfold r in *; lia).
      fold last. unfold put, io_bind, io_lift, write_all, flush, io_ret. destruct w as [o [k|] f]; cbn [room written flush_fails] in *; subst f; [destruct (_ <=? k)%nat|]; reflexivity. }
    unfold run_vec, session. unfold io_bind at 1. rewrite (E vec_writer). unfold put, io_bind at 1, write_all, io_lift. cbn [vec_writer room written flush_fails app]. rewrite Em by reflexivity.
    unfold put, io_bind, io_lift, write_all. cbn [room written flush_fails]. reflexivity.
  - unfold bytes_bits in *. rewrite flat_map_app, B. cbn [flat_map]. rewrite app_nil_r. f_equal. unfold last. replace (N.of_nat (length bits) mod 8)%N with (N.of_nat r) by (unfold r; lia).
    rewrite shl_lsb by (try exact W1; lia). now rewrite W2.
Qed.
