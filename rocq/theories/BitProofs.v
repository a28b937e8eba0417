(** * Lemmas about bits, bit arrays and the bit writer. *)
From Verif Require Import Base SerSpec SerProofs Bit BitSpec.
From Coq Require Import ZifyBool ZifyNat ZifyN.
Set Implicit Arguments.
Ltac Zify.zify_post_hook ::= Z.div_mod_to_equations.

(** ** Bits of the u8 operations *)
Lemma shl8_bit a k i : N.testbit (shl8 a k) i = (i <? 8)%N && (k <=? i)%N && N.testbit a (i - k).
Proof.
  unfold shl8. change 256%N with (2 ^ 8)%N. destruct (N.ltb_spec i 8).
  - rewrite N.mod_pow2_bits_low by assumption. destruct (N.leb_spec k i).
    + now rewrite N.shiftl_spec_high'.
    + now rewrite N.shiftl_spec_low.
  - now rewrite N.mod_pow2_bits_high.
Qed.
Lemma shr8_bit a k i : N.testbit (shr8 a k) i = N.testbit a (i + k).
Proof. apply N.shiftr_spec'. Qed.
Lemma byte_high n i : u8_ok n -> (8 <= i)%N -> N.testbit n i = false.
Proof.
  intros Hn Hi. unfold u8_ok in Hn. rewrite <- (N.mod_small n 256) by assumption.
  change 256%N with (2 ^ 8)%N. now apply N.mod_pow2_bits_high.
Qed.
Lemma byte_of_high n : (forall i, (8 <= i)%N -> N.testbit n i = false) -> u8_ok n.
Proof.
  intros H. unfold u8_ok. replace n with (n mod 256)%N; [apply N.mod_lt; lia|].
  apply N.bits_inj. intros i. change 256%N with (2 ^ 8)%N. destruct (N.ltb_spec i 8).
  - now apply N.mod_pow2_bits_low.
  - rewrite N.mod_pow2_bits_high by assumption. symmetry. auto.
Qed.
Lemma bit_byte_bit b i : N.testbit (bit_byte b) i = (i =? 0)%N && b.
Proof. destruct b, i as [|p]; try reflexivity; destruct p; reflexivity. Qed.

Lemma push_msb_bit n b i : N.testbit (push_bit n b MsbFirst) i =
  if (i =? 0)%N then b else (i <? 8)%N && N.testbit n (i - 1).
Proof.
  unfold push_bit. rewrite N.lor_spec, shl8_bit, bit_byte_bit.
  destruct (N.eqb_spec i 0) as [->|H].
  - cbn. reflexivity.
  - rewrite orb_false_r. replace (1 <=? i)%N with true by (symmetry; apply N.leb_le; lia).
    now rewrite andb_true_r.
Qed.
Lemma push_lsb_bit n b i : u8_ok n -> N.testbit (push_bit n b LsbFirst) i =
  if (i =? 7)%N then b else N.testbit n (i + 1).
Proof.
  intros Hn. unfold push_bit. rewrite N.lor_spec, shr8_bit, shl8_bit, bit_byte_bit.
  destruct (N.eqb_spec i 7) as [->|H].
  - rewrite byte_high by (assumption || lia). reflexivity.
  - destruct (N.ltb_spec i 8); [|now rewrite orb_false_r].
    destruct (N.leb_spec 7 i); [lia|]. now rewrite orb_false_r.
Qed.
Lemma push_u8 n b bo : u8_ok n -> u8_ok (push_bit n b bo).
Proof.
  intros Hn. apply byte_of_high. intros i Hi. destruct bo.
  - rewrite push_msb_bit. destruct (N.eqb_spec i 0); [lia|]. now destruct (N.ltb_spec i 8); [lia|].
  - rewrite push_lsb_bit by assumption. destruct (N.eqb_spec i 7); [lia|]. apply byte_high; [assumption|lia].
Qed.

Lemma nth_bit_lsb n i : (i < 8)%N -> nth_bit n i LsbFirst = N.testbit n i.
Proof.
  intros Hi. unfold nth_bit.
  assert (E : N.land n (shl8 1 i) = if N.testbit n i then N.shiftl 1 i else 0%N).
  { apply N.bits_inj. intros j. rewrite N.land_spec, shl8_bit.
    destruct (N.eqb_spec j i) as [->|Hj].
    - rewrite N.sub_diag, N.leb_refl. destruct (N.ltb_spec i 8); [|lia]. cbn [andb].
      destruct (N.testbit n i); cbn [andb]; [|now rewrite N.bits_0]. rewrite N.shiftl_spec_high' by lia. now rewrite N.sub_diag.
    - replace (N.testbit (if N.testbit n i then N.shiftl 1 i else 0%N) j) with false.
      + destruct (N.leb_spec i j); [|now rewrite !andb_false_r].
        replace (N.testbit 1 (j - i)) with false; [now rewrite !andb_false_r|].
        symmetry. apply N.bits_above_log2. change (N.log2 1) with 0%N. lia.
      + symmetry. destruct (N.testbit n i); [|apply N.bits_0].
        rewrite N.shiftl_1_l. apply N.pow2_bits_false. lia. }
  rewrite E. destruct (N.testbit n i); [|reflexivity].
  rewrite N.shiftl_1_l. assert (2 ^ i <> 0)%N by (apply N.pow_nonzero; lia).
  destruct (N.eqb_spec (2 ^ i) 0); [contradiction|reflexivity].
Qed.
Lemma nth_bit_msb n i : (i < 8)%N -> nth_bit n i MsbFirst = N.testbit n (7 - i).
Proof.
  intros Hi. rewrite <- nth_bit_lsb by lia. unfold nth_bit.
  replace (shr8 128 i) with (shl8 1 (7 - i)); [reflexivity|].
  unfold shl8, shr8.
  assert (E : (i = 0 \/ i = 1 \/ i = 2 \/ i = 3 \/ i = 4 \/ i = 5 \/ i = 6 \/ i = 7)%N) by lia.
  decompose [or] E; subst; reflexivity.
Qed.
Lemma bit_array_spec n bo : bit_array n bo = byte_bits bo n.
Proof.
  destruct bo; unfold bit_array, byte_bits; cbn [map];
    repeat first [rewrite nth_bit_lsb by lia|rewrite nth_bit_msb by lia]; reflexivity.
Qed.

Lemma byte_ext a b : u8_ok a -> u8_ok b -> (forall i, (i < 8)%N -> N.testbit a i = N.testbit b i) -> a = b.
Proof.
  intros Ha Hb H. apply N.bits_inj. intros i. destruct (N.ltb_spec i 8); [auto|].
  now rewrite !byte_high.
Qed.
Lemma byte_bits_inj bo a b : u8_ok a -> u8_ok b -> byte_bits bo a = byte_bits bo b -> a = b.
Proof.
  intros Ha Hb E. apply byte_ext; [assumption|assumption|]. intros i Hi.
  assert (I : (i = 0 \/ i = 1 \/ i = 2 \/ i = 3 \/ i = 4 \/ i = 5 \/ i = 6 \/ i = 7)%N) by lia.
  destruct bo; unfold byte_bits in E; cbn [map] in E; injection E as E0 E1 E2 E3 E4 E5 E6 E7;
    decompose [or] I; subst; assumption.
Qed.
Lemma byte_bits_length bo n : length (byte_bits bo n) = 8%nat.
Proof. destruct bo; reflexivity. Qed.

Lemma seq_from m : forall k, seq m k = map (fun j => (m + j)%nat) (seq 0 k).
Proof.
  induction k as [|k IH]; [reflexivity|]. rewrite !seq_S, map_app, IH. reflexivity.
Qed.

(** ** The pending bits of a partial byte *)
Definition pend (bo : bit_order) (c : nat) (n : N) : list bool :=
  match bo with
  | MsbFirst => map (fun j => N.testbit n (N.of_nat j)) (rev (seq 0 c))
  | LsbFirst => map (fun j => N.testbit n (N.of_nat j)) (seq (8 - c) c)
  end.

Lemma pend_0 bo n : pend bo 0 n = [].
Proof. destruct bo; reflexivity. Qed.
Lemma pend_8 bo n : pend bo 8 n = byte_bits bo n.
Proof. destruct bo; reflexivity. Qed.
Lemma pend_length bo c n : length (pend bo c n) = c.
Proof. destruct bo; cbn [pend]; rewrite map_length, ?rev_length, seq_length; reflexivity. Qed.

Lemma pend_push bo c n b : (c < 8)%nat -> u8_ok n ->
  pend bo (S c) (push_bit n b bo) = pend bo c n ++ [b].
Proof.
  intros Hc Hn. destruct bo; cbn [pend].
  - change (S c) with (1 + c)%nat. rewrite seq_app. cbn [seq Nat.add]. rewrite rev_app_distr, map_app.
    f_equal.
    + rewrite <- seq_shift, <- map_rev, map_map. apply map_ext_in. intros j Hj.
      apply in_rev, in_seq in Hj. rewrite push_msb_bit.
      destruct (N.eqb_spec (N.of_nat (S j)) 0); [lia|].
      destruct (N.ltb_spec (N.of_nat (S j)) 8); [|lia]. cbn [andb]. f_equal. lia.
    + cbn [rev app map]. rewrite push_msb_bit. reflexivity.
  - rewrite seq_S, map_app. f_equal.
    + replace (8 - c)%nat with (S (8 - S c)) by lia. rewrite <- seq_shift, map_map.
      apply map_ext_in. intros j Hj. apply in_seq in Hj.
      rewrite push_lsb_bit by assumption. destruct (N.eqb_spec (N.of_nat j) 7); [lia|]. f_equal. lia.
    + cbn [map]. rewrite push_lsb_bit by assumption.
      destruct (N.eqb_spec (N.of_nat (8 - S c + c)) 7); [reflexivity|lia].
Qed.

Lemma fold_push bo l : forall n c, u8_ok n -> (c + length l <= 8)%nat ->
  u8_ok (fold_left (fun n b => push_bit n b bo) l n) /\
  pend bo (c + length l) (fold_left (fun n b => push_bit n b bo) l n) = pend bo c n ++ l.
Proof.
  induction l as [|b l IH]; intros n c Hn Hl.
  - cbn [fold_left length]. rewrite Nat.add_0_r, app_nil_r. auto.
  - cbn [fold_left length] in *. destruct (IH (push_bit n b bo) (S c)) as [H1 H2].
    + now apply push_u8.
    + lia.
    + split; [exact H1|]. replace (c + S (length l))%nat with (S c + length l)%nat by lia.
      rewrite H2. rewrite pend_push by (assumption || lia). now rewrite <- app_assoc.
Qed.

Lemma fold_push_0 bo l : (length l <= 8)%nat ->
  u8_ok (fold_left (fun n b => push_bit n b bo) l 0%N) /\
  pend bo (length l) (fold_left (fun n b => push_bit n b bo) l 0%N) = l.
Proof.
  intros H. destruct (@fold_push bo l 0%N 0%nat) as [H1 H2].
  - unfold u8_ok. lia.
  - lia.
  - rewrite pend_0 in H2. auto.
Qed.

Lemma emits_write_ret {A} bs (a : A) : emits (io_bind (write_all bs) (fun _ => io_ret a)) bs (Ok a).
Proof. intros w. reflexivity. Qed.

(** ** C06 *)
Lemma pack_unpack bo n : u8_ok n -> byte_from_slice (bit_array n bo) bo = Ok n.
Proof.
  intros Hn. unfold byte_from_slice. cbn [bit_array length Nat.eqb negb].
  rewrite bit_array_spec. destruct (fold_push_0 bo (byte_bits bo n)) as [H1 H2].
  - rewrite byte_bits_length. lia.
  - rewrite byte_bits_length, pend_8 in H2. f_equal. eapply byte_bits_inj; eauto.
Qed.
Lemma unpack_pack bo bits n : byte_from_slice bits bo = Ok n -> u8_ok n /\ bit_array n bo = bits.
Proof.
  unfold byte_from_slice. destruct (Nat.eqb_spec (length bits) 8) as [E|E]; [|discriminate].
  cbn [negb]. intros [= <-]. destruct (fold_push_0 bo bits) as [H1 H2]; [lia|].
  rewrite E, pend_8 in H2. rewrite bit_array_spec. auto.
Qed.
Lemma pack_length bits bo : (exists n, byte_from_slice bits bo = Ok n) <-> length bits = 8%nat.
Proof.
  unfold byte_from_slice. destruct (Nat.eqb_spec (length bits) 8) as [E|E]; cbn [negb].
  - split; eauto.
  - split; [intros [n Hn]; discriminate|contradiction].
Qed.
Lemma pack_refuses bits bo : length bits <> 8%nat -> byte_from_slice bits bo = Err.
Proof. intros H. unfold byte_from_slice. destruct (Nat.eqb_spec (length bits) 8); [contradiction|reflexivity]. Qed.
Lemma mask_land n k : (k <= 8)%N -> N.land n (bit_mask k) = (n mod 2 ^ k)%N.
Proof.
  intros Hk. rewrite <- N.land_ones. f_equal. unfold bit_mask.
  assert (I : (k = 0 \/ k = 1 \/ k = 2 \/ k = 3 \/ k = 4 \/ k = 5 \/ k = 6 \/ k = 7 \/ k = 8)%N) by lia.
  decompose [or] I; subst; reflexivity.
Qed.

(** ** C08: bit arrays *)
Lemma pack_full_spec bo fuel : forall bits packed, length bits / 8 = fuel ->
  exists bytes rest,
    pack_full fuel bits bo packed = Ok (packed ++ bytes, rest)
    /\ Forall u8_ok bytes /\ bits = bytes_bits bo bytes ++ rest
    /\ (length rest < 8)%nat /\ length bytes = fuel.
Proof.
  induction fuel as [|fuel IH]; intros bits packed Hf.
  - exists [], bits. rewrite app_nil_r. repeat split; [constructor|].
    apply Nat.div_small_iff in Hf; lia.
  - cbn [pack_full].
    assert (H8 : (8 <= length bits)%nat) by (destruct (le_lt_dec 8 (length bits)); [assumption|rewrite Nat.div_small in Hf; lia]).
    destruct (proj2 (pack_length (firstn 8 bits) bo)) as [n Hn].
    { rewrite firstn_length. lia. }
    rewrite Hn. destruct (unpack_pack _ _ Hn) as [Un Bn]. rewrite bit_array_spec in Bn.
    destruct (IH (skipn 8 bits) (packed ++ [n])) as [bytes [rest [E1 [E2 [E3 [E4 E5]]]]]].
    { rewrite skipn_length. replace (length bits) with (length bits - 8 + 1 * 8)%nat in Hf by lia.
      rewrite Nat.div_add in Hf by lia. lia. }
    exists (n :: bytes), rest. rewrite E1, <- app_assoc. repeat split; auto.
    + unfold bytes_bits in *. cbn [flat_map]. rewrite Bn, <- app_assoc, <- E3. symmetry. apply firstn_skipn.
    + cbn. now rewrite E5.
Qed.

Lemma from_slice_spec bits bo : exists a,
  ba_from_slice bits bo = Ok a /\ ba_order a = bo /\ (partial_count a < 8)%N /\
  Forall u8_ok (full_bytes a) /\
  bits = bytes_bits bo (full_bytes a) ++ pend bo (N.to_nat (partial_count a)) (partial_byte a).
Proof.
  destruct (@pack_full_spec bo (length bits / 8) bits [] eq_refl) as [bytes [rest [E1 [E2 [E3 [E4 E5]]]]]].
  unfold ba_from_slice. rewrite E1. cbn [app]. eexists. split; [reflexivity|].
  cbn [ba_order partial_count full_bytes partial_byte]. repeat split; auto.
  - lia.
  - rewrite Nat2N.id. destruct (fold_push_0 bo rest) as [_ H]; [lia|]. now rewrite H.
Qed.

Lemma bytes_bits_length bo bs : length (bytes_bits bo bs) = (8 * length bs)%nat.
Proof.
  induction bs as [|b bs IH]; [reflexivity|]. unfold bytes_bits in *. cbn [flat_map].
  rewrite app_length, IH, byte_bits_length. cbn [length]. lia.
Qed.

Lemma from_slice_len bits bo : exists a, ba_from_slice bits bo = Ok a /\ ba_len a = N.of_nat (length bits).
Proof.
  destruct (from_slice_spec bits bo) as [a [E [Ho [Hc [Hf Hb]]]]]. exists a. split; [exact E|].
  rewrite Hb, app_length, bytes_bits_length, pend_length. unfold ba_len. lia.
Qed.

(** ** The writer: [wrote m st l] says that [m] appends the bits [l] *)
Definition bw_inv (st : bw) : Prop := (bit_count st < 8)%N /\ u8_ok (curr_bits st).
Definition pending (st : bw) : list bool := pend (bw_order st) (N.to_nat (bit_count st)) (curr_bits st).

Definition wrote (m : io bw) (st : bw) (l : list bool) : Prop :=
  exists bytes st', emits m bytes (Ok st') /\ bw_inv st' /\ bw_order st' = bw_order st
    /\ Forall u8_ok bytes
    /\ pending st ++ l = bytes_bits (bw_order st) bytes ++ pending st'.

Lemma wrote_ret st : bw_inv st -> wrote (io_ret st) st [].
Proof.
  intros H. exists [], st. split; [apply emits_ret|]. split; [exact H|]. split; [reflexivity|]. split; [constructor|].
  now rewrite app_nil_r.
Qed.
Lemma wrote_bind m (f : bw -> io bw) st l1 l2 :
  wrote m st l1 -> (forall st', bw_inv st' -> bw_order st' = bw_order st -> wrote (f st') st' l2) ->
  wrote (io_bind m f) st (l1 ++ l2).
Proof.
  intros [b1 [s1 [E1 [I1 [O1 [U1 P1]]]]]] H.
  destruct (H s1 I1 O1) as [b2 [s2 [E2 [I2 [O2 [U2 P2]]]]]].
  exists (b1 ++ b2), s2. split; [|split; [|split; [|split]]].
  - now apply emits_bind with (a := s1).
  - exact I2.
  - congruence.
  - apply Forall_app. auto.
  - rewrite app_assoc, P1, <- app_assoc, P2. unfold bytes_bits. rewrite flat_map_app, <- app_assoc.
    now rewrite O1.
Qed.
Lemma wrote_iter {A} (op : A -> bw -> io bw) (bits : A -> list bool) xs : forall st,
  bw_inv st ->
  (forall x st', In x xs -> bw_inv st' -> bw_order st' = bw_order st -> wrote (op x st') st' (bits x)) ->
  wrote (bw_iter op xs st) st (flat_map bits xs).
Proof.
  induction xs as [|x xs IH]; intros st Hst H; cbn [bw_iter flat_map].
  - now apply wrote_ret.
  - apply wrote_bind.
    + apply H; [now left|assumption|reflexivity].
    + intros st' I' O'. apply IH; [assumption|].
      intros y st'' Hy I'' O''. apply H; [now right|assumption|congruence].
Qed.

Lemma wrote_bit b st : bw_inv st -> wrote (bw_write b st) st [b].
Proof.
  intros [Hc Hn]. unfold bw_write.
  assert (Hp : pend (bw_order st) (S (N.to_nat (bit_count st))) (push_bit (curr_bits st) b (bw_order st))
               = pending st ++ [b]) by (apply pend_push; [lia|assumption]).
  destruct (N.eqb_spec (bit_count st + 1) 8) as [E|E].
  - exists [push_bit (curr_bits st) b (bw_order st)], (mkBW (push_bit (curr_bits st) b (bw_order st)) 0 (bw_order st)).
    split; [|split; [|split; [|split]]]; cbn [bit_count curr_bits bw_order].
    + apply emits_write_ret.
    + split; cbn [bit_count curr_bits]; [lia|now apply push_u8].
    + reflexivity.
    + repeat constructor. now apply push_u8.
    + rewrite <- Hp. replace (S (N.to_nat (bit_count st))) with 8%nat by lia.
      unfold bytes_bits. cbn [flat_map]. rewrite pend_8. unfold pending. cbn [bit_count curr_bits bw_order].
      change (N.to_nat 0) with 0%nat. rewrite pend_0, ?app_nil_r; reflexivity.
  - exists [], (mkBW (push_bit (curr_bits st) b (bw_order st)) (bit_count st + 1) (bw_order st)).
    split; [|split; [|split; [|split]]]; cbn [bit_count curr_bits bw_order].
    + apply emits_ret.
    + split; cbn [bit_count curr_bits]; [lia|now apply push_u8].
    + reflexivity.
    + constructor.
    + rewrite <- Hp. unfold pending. cbn [bit_count curr_bits bw_order bytes_bits flat_map app].
      f_equal. lia.
Qed.

Lemma wrote_bits bs : forall st, bw_inv st -> wrote (bw_iter bw_write bs st) st bs.
Proof.
  intros st H. replace bs with (flat_map (fun b : bool => [b]) bs) at 2.
  - apply wrote_iter; [exact H|]. intros x st' _ I' _. now apply wrote_bit.
  - clear. induction bs; cbn; congruence.
Qed.

Lemma mask_bit n k i : (k <= 8)%N -> N.testbit (N.land n (bit_mask k)) i = (i <? k)%N && N.testbit n i.
Proof.
  intros Hk. rewrite mask_land by assumption. destruct (N.ltb_spec i k).
  - now rewrite N.mod_pow2_bits_low.
  - now rewrite N.mod_pow2_bits_high.
Qed.

Lemma map_seq_split {A} (f : nat -> A) a b : map f (rev (seq 0 (a + b))) = map f (rev (seq a b)) ++ map f (rev (seq 0 a)).
Proof. rewrite seq_app, rev_app_distr, map_app. reflexivity. Qed.

Lemma wrote_byte n st : bw_inv st -> u8_ok n -> bw_order st = MsbFirst \/ bit_count st = 0%N ->
  wrote (bw_write_byte n st) st (byte_bits (bw_order st) n).
Proof.
  intros [Hc Hn] Un Ho. unfold bw_write_byte. destruct (N.eqb_spec (bit_count st) 0) as [E|E].
  - exists [n], st. split; [|split; [|split; [|split]]].
    + apply emits_write_ret.
    + now split.
    + reflexivity.
    + repeat constructor. assumption.
    + unfold pending. rewrite E. change (N.to_nat 0) with 0%nat. rewrite !pend_0.
      unfold bytes_bits. cbn [flat_map app]. now rewrite !app_nil_r.
  - assert (Ho' : bw_order st = MsbFirst) by tauto. rewrite Ho'. cbn [bo_eqb negb].
    set (c := bit_count st) in *. set (cb := N.lor (shl8 (curr_bits st) (8 - c)) (shr8 n c)).
    assert (Ucb : u8_ok cb).
    { apply byte_of_high. intros i Hi. unfold cb. rewrite N.lor_spec, shl8_bit, shr8_bit.
      destruct (N.ltb_spec i 8); [lia|]. cbn [andb orb]. apply byte_high; [assumption|lia]. }
    exists [cb], (mkBW (N.land n (bit_mask c)) c MsbFirst).
    split; [|split; [|split; [|split]]]; cbn [bit_count curr_bits bw_order].
    + apply emits_write_ret.
    + split; cbn [bit_count curr_bits]; [assumption|]. apply byte_of_high. intros i Hi. rewrite mask_bit by lia. destruct (N.ltb_spec i c); [lia|reflexivity].
    + now rewrite Ho'.
    + repeat constructor. assumption.
    + unfold pending. rewrite Ho'. fold c. cbn [bit_count curr_bits bw_order].
      unfold bytes_bits. cbn [flat_map]. rewrite app_nil_r, <- !(pend_8 MsbFirst).
      cbn [pend]. remember (N.to_nat c) as k eqn:Ek.
      assert (S8 : forall (f : nat -> bool) j, (j <= 8)%nat -> map f (rev (seq 0 8)) = map f (rev (seq j (8 - j))) ++ map f (rev (seq 0 j))).
      { intros f j Hj. rewrite <- map_seq_split. do 3 f_equal. lia. }
      rewrite (S8 (fun j => N.testbit n (N.of_nat j)) k) by lia.
      rewrite (S8 (fun j => N.testbit cb (N.of_nat j)) (8 - k)%nat) by lia.
      rewrite app_assoc. f_equal; [f_equal|].
      * replace (8 - (8 - k))%nat with k by lia.
        rewrite (seq_from (8 - k) k).
        rewrite <- map_rev, map_map. apply map_ext_in. intros j Hj. apply in_rev, in_seq in Hj.
        unfold cb. rewrite N.lor_spec, shl8_bit, shr8_bit.
        destruct (N.ltb_spec (N.of_nat (8 - k + j)) 8); [|lia].
        destruct (N.leb_spec (8 - c) (N.of_nat (8 - k + j))); [|lia]. cbn [andb].
        rewrite (byte_high (i := N.of_nat (8 - k + j) + c)) by (assumption || lia).
        rewrite orb_false_r. f_equal. lia.
      * rewrite (seq_from k (8 - k)).
        rewrite <- map_rev, map_map. apply map_ext_in. intros j Hj. apply in_rev, in_seq in Hj.
        unfold cb. rewrite N.lor_spec, shl8_bit, shr8_bit.
        destruct (N.leb_spec (8 - c) (N.of_nat j)); [lia|]. rewrite andb_false_r. cbn [andb orb].
        f_equal. lia.
      * apply map_ext_in. intros j Hj. apply in_rev, in_seq in Hj.
        rewrite mask_bit by lia. destruct (N.ltb_spec (N.of_nat j) c); [reflexivity|lia].
Qed.

Lemma flat_map_single {A B} (f : A -> B) l : flat_map (fun x => [f x]) l = map f l.
Proof. induction l; cbn; congruence. Qed.

Lemma wrote_arr bits a st : bw_inv st -> ba_from_slice bits (bw_order st) = Ok a ->
  bw_order st = MsbFirst \/ bit_count st = 0%N \/ (length bits < 8)%nat ->
  wrote (bw_write_arr a st) st bits.
Proof.
  intros Hst Ha Hal. destruct (from_slice_spec bits (bw_order st)) as [a' [E [Ho [Hc [Hf Hb]]]]].
  rewrite Ha in E. injection E as <-. rewrite Hb. unfold bw_write_arr. apply wrote_bind.
  - assert (Hz : bw_order st = MsbFirst \/ bit_count st = 0%N \/ full_bytes a = []).
    { destruct Hal as [H|[H|H]]; auto. right. right.
      destruct (full_bytes a) as [|x fb]; [reflexivity|exfalso].
      apply (f_equal (@length bool)) in Hb. rewrite app_length, bytes_bits_length in Hb. cbn in Hb. lia. }
    clear Hb Hal Ha. revert st Hst Ho Hz.
    induction (full_bytes a) as [|x fb IH]; intros st Hst Ho Hz; cbn [bw_iter].
    { now apply wrote_ret. }
    apply Forall_cons_iff in Hf as [Ux Uf]. unfold bytes_bits. cbn [flat_map].
    destruct Hz as [Hz|[Hz|Hz]]; [| |discriminate].
    + apply wrote_bind; [now apply wrote_byte; auto|].
      intros st' I' O'. rewrite <- O'. apply IH; auto; try congruence. left. congruence.
    + (* aligned: the state does not change *)
      destruct (IH Uf st Hst Ho (or_intror (or_introl Hz))) as [b2 [s2 [E2 [I2 [O2 [U2 P2]]]]]].
      exists (x :: b2), s2. split; [|split; [exact I2|split; [exact O2|split; [now constructor|]]]].
      * change (x :: b2) with ([x] ++ b2). apply emits_bind with (a := st); [|exact E2].
        unfold bw_write_byte. rewrite Hz. cbn [N.eqb]. apply emits_write_ret.
      * unfold pending in *. rewrite Hz in *. change (N.to_nat 0) with 0%nat in *.
        rewrite pend_0 in *. cbn [app] in *. unfold bytes_bits in *. cbn [flat_map].
        rewrite <- app_assoc. now rewrite P2.
  - intros st' I' O'.
    replace (pend (bw_order st) (N.to_nat (partial_count a)) (partial_byte a))
      with (flat_map (fun j => [nth_bit (partial_byte a) (8 - partial_count a + N.of_nat j) (ba_order a)])
                     (seq 0 (N.to_nat (8 - (8 - partial_count a))))).
    + apply wrote_iter; [exact I'|]. intros j st'' Hj I'' O''. now apply wrote_bit.
    + rewrite flat_map_single, Ho. replace (8 - (8 - partial_count a))%N with (partial_count a) by lia.
      destruct (bw_order st); cbn [pend].
      * set (k := N.to_nat (partial_count a)).
        assert (R : forall n, rev (seq 0 n) = map (fun j => n - 1 - j)%nat (seq 0 n)).
        { clear. induction n as [|n IHn]; [reflexivity|].
          rewrite seq_S at 1. cbn [Nat.add]. rewrite rev_app_distr. cbn [rev app seq map].
          f_equal; [lia|]. rewrite IHn, <- seq_shift, map_map. apply map_ext. intros. lia. }
        rewrite R, map_map. apply map_ext_in. intros j Hj. apply in_seq in Hj. unfold k in *.
        rewrite nth_bit_msb by lia. f_equal. lia.
      * set (k := N.to_nat (partial_count a)).
        rewrite (seq_from (8 - k) k).
        rewrite map_map. apply map_ext_in. intros j Hj. apply in_seq in Hj. unfold k in *.
        rewrite nth_bit_lsb by lia. f_equal. lia.
Qed.

Lemma wrote_op op st : bw_inv st -> bw_order st = MsbFirst -> op_ok op ->
  wrote (do_op op st) st (op_bits MsbFirst op).
Proof.
  intros Hst Ho Hop. destruct op as [b|n|bits]; cbn [do_op op_bits].
  - now apply wrote_bit.
  - rewrite <- Ho. apply wrote_byte; auto.
  - destruct (from_slice_spec bits (bw_order st)) as [a [E _]]. rewrite E. eapply wrote_arr; eauto.
Qed.

Lemma wrote_ops ops : Forall op_ok ops -> forall st, bw_inv st -> bw_order st = MsbFirst ->
  wrote (do_ops ops st) st (flat_map (op_bits MsbFirst) ops).
Proof.
  intros Hops st Hst Ho. apply wrote_iter; [exact Hst|].
  intros op st' Hop I' O'. apply wrote_op; [assumption|congruence|].
  exact (proj1 (Forall_forall _ _) Hops op Hop).
Qed.

Lemma bw_new_inv bo : bw_inv (bw_new bo).
Proof. split; cbn; unfold u8_ok; lia. Qed.

(** *** The final flush *)
Definition pad_bytes (st : bw) : list N :=
  if (bit_count st =? 0)%N then [] else [shl8 (curr_bits st) (8 - bit_count st)].
Lemma pad_and_flush_run st w : flush_fails w = false ->
  bw_pad_and_flush st w = put (pad_bytes st) (Ok (if (bit_count st =? 0)%N then st else mkBW 0 0 (bw_order st))) w.
Proof.
  intros Hw. unfold bw_pad_and_flush, pad_bytes. destruct (bit_count st =? 0)%N.
  - unfold put, io_bind, io_ret, flush. rewrite Hw, write_all_nil. reflexivity.
  - unfold put, io_bind, io_ret, flush.
    assert (F : forall bs, flush_fails (snd (write_all bs w)) = flush_fails w).
    { intros bs. unfold write_all. destruct (room w); [destruct (_ <=? _)%nat|]; reflexivity. }
    specialize (F [shl8 (curr_bits st) (8 - bit_count st)]).
    destruct (write_all _ w) as [[[]| |] w']; cbn in F; try reflexivity. rewrite F, Hw. reflexivity.
Qed.

Lemma pad_bits st : bw_inv st -> bw_order st = MsbFirst ->
  Forall u8_ok (pad_bytes st) /\
  exists k, (k < 8)%nat /\ bytes_bits MsbFirst (pad_bytes st) = pending st ++ repeat false k.
Proof.
  intros [Hc Hn] Ho. unfold pad_bytes, pending. rewrite Ho. set (c := bit_count st) in *.
  destruct (N.eqb_spec c 0) as [E|E].
  - split; [constructor|]. exists 0%nat. rewrite E. change (N.to_nat 0) with 0%nat. rewrite pend_0. split; [lia|reflexivity].
  - split.
    + repeat constructor. unfold u8_ok, shl8. apply N.mod_lt. lia.
    + exists (8 - N.to_nat c)%nat. split; [lia|].
      unfold bytes_bits. cbn [flat_map]. rewrite app_nil_r, <- (pend_8 MsbFirst). cbn [pend].
      remember (N.to_nat c) as k eqn:Ek.
      replace (rev (seq 0 8)) with (rev (seq (8 - k) k) ++ rev (seq 0 (8 - k)))
        by (rewrite <- rev_app_distr, <- seq_app; do 2 f_equal; lia).
      rewrite map_app. f_equal.
      * rewrite (seq_from (8 - k) k).
        rewrite <- map_rev, map_map. apply map_ext_in. intros j Hj. apply in_rev, in_seq in Hj.
        rewrite shl8_bit. destruct (N.ltb_spec (N.of_nat (8 - k + j)) 8); [|lia].
        destruct (N.leb_spec (8 - c) (N.of_nat (8 - k + j))); [|lia]. cbn [andb]. f_equal. lia.
      * rewrite <- (seq_length (8 - k) 0) at 2. rewrite <- rev_length.
        assert (G : forall l, (forall j, In j l -> (j < 8 - k)%nat) ->
                  map (fun j => N.testbit (shl8 (curr_bits st) (8 - c)) (N.of_nat j)) l = repeat false (length l)).
        { induction l as [|j l IH]; intros Hl; [reflexivity|]. cbn [map length repeat]. f_equal.
          - rewrite shl8_bit. specialize (Hl j (or_introl eq_refl)).
            destruct (N.leb_spec (8 - c) (N.of_nat j)); [lia|]. now rewrite andb_false_r.
          - apply IH. intros i Hi. apply Hl. now right. }
        apply G. intros j Hj. apply in_rev, in_seq in Hj. lia.
Qed.

Lemma put_bind_run {A B} (m : io A) (f : A -> io B) bs1 a bs2 r w :
  emits m bs1 (Ok a) -> (forall w', flush_fails w' = flush_fails w -> f a w' = put bs2 r w') ->
  io_bind m f w = put (bs1 ++ bs2) r w.
Proof.
  intros Hm Hf. unfold io_bind at 1. rewrite (Hm w). unfold put, io_bind.
  rewrite write_all_app. unfold io_bind.
  assert (F : flush_fails (snd (write_all bs1 w)) = flush_fails w).
  { unfold write_all. destruct (room w); [destruct (_ <=? _)%nat|]; reflexivity. }
  destruct (write_all bs1 w) as [[[]| |] w1]; try reflexivity. cbn in F.
  unfold io_lift at 1. rewrite (Hf w1 F). reflexivity.
Qed.

(** C07: a whole session in MSB order *)
Lemma session_msb ops : Forall op_ok ops ->
  exists out st k, (k < 8)%nat /\ Forall u8_ok out /\
    bytes_bits MsbFirst out = flat_map (op_bits MsbFirst) ops ++ repeat false k /\
    forall w, flush_fails w = false -> session MsbFirst ops w = put out (Ok st) w.
Proof.
  intros Hops. destruct (wrote_ops Hops (bw_new_inv MsbFirst) eq_refl) as [bytes [st [E [I [O [U P]]]]]].
  destruct (pad_bits I O) as [Up [k [Hk Hp]]].
  exists (bytes ++ pad_bytes st), (if (bit_count st =? 0)%N then st else mkBW 0 0 (bw_order st)), k.
  split; [exact Hk|]. split; [apply Forall_app; auto|]. split.
  - unfold bytes_bits in *. rewrite flat_map_app, Hp, app_assoc.
    cbn [bw_new bw_order] in P. rewrite <- P. cbn [pending]. unfold pending.
    cbn [bw_new bw_order bit_count curr_bits]. change (N.to_nat 0) with 0%nat. now rewrite pend_0.
  - intros w Hw. unfold session. apply put_bind_run with (a := st); [exact E|].
    intros w' Hw'. apply pad_and_flush_run. congruence.
Qed.

Lemma session_msb_vec ops : Forall op_ok ops ->
  exists out k, run_vec (session MsbFirst ops) = Ok out /\ (k < 8)%nat /\
    bytes_bits MsbFirst out = flat_map (op_bits MsbFirst) ops ++ repeat false k.
Proof.
  intros Hops. destruct (session_msb Hops) as [out [st [k [Hk [U [B R]]]]]].
  exists out, k. split; [|auto]. unfold run_vec. rewrite (R vec_writer eq_refl). reflexivity.
Qed.

(** *** The reader *)
Lemma br_yields_buf {S} (next : nextf S N) bo buf : forall s d,
  yields (br_next next bo) (mkBR buf s d) buf (mkBR [] s d).
Proof.
  induction buf as [|b buf IH]; intros s d; [constructor|].
  econstructor; [|apply IH]. reflexivity.
Qed.
Lemma br_yields_at {S} (next : nextf S N) bo bytes : forall s s' buf,
  yields next s bytes s' ->
  yields (br_next next bo) (mkBR buf s false) (buf ++ bytes_bits bo bytes) (mkBR [] s' false).
Proof.
  induction bytes as [|n bytes IH]; intros s s' buf Hy.
  - inversion Hy; subst. cbn. rewrite app_nil_r. apply br_yields_buf.
  - apply yields_cons_inv in Hy as [s1 [H1 H2]].
    eapply yields_app; [apply br_yields_buf|].
    unfold bytes_bits. cbn [flat_map]. rewrite <- bit_array_spec.
    cbn [bit_array app]. econstructor.
    + unfold br_next. cbn [br_buf br_done br_src]. rewrite H1. cbn [bit_array]. reflexivity.
    + apply (IH s1 s' [_; _; _; _; _; _; _] H2).
Qed.
Lemma br_all {S} (next : nextf S N) bo bytes s :
  yields_all next s bytes -> yields_all (br_next next bo) (bit_reader s) (bytes_bits bo bytes).
Proof.
  intros [s' [s'' [Hy Hn]]]. exists (mkBR [] s' false), (mkBR [] s'' true). split.
  - apply (br_yields_at bo [] Hy).
  - unfold br_next. cbn [br_buf br_done br_src]. now rewrite Hn.
Qed.
Lemma br_prefix {S} (next : nextf S N) bo bytes s s' :
  yields next s bytes s' -> yields (br_next next bo) (bit_reader s) (bytes_bits bo bytes) (mkBR [] s' false).
Proof. intros Hy. apply (br_yields_at bo [] Hy). Qed.

(** C08: at any alignment *)
Lemma arr_at_any_alignment pre bits : Forall op_ok pre ->
  exists a, ba_from_slice bits MsbFirst = Ok a /\ ba_len a = N.of_nat (length bits) /\
  exists out k, run_vec (io_bind (do_ops pre (bw_new MsbFirst))
                          (fun st => io_bind (bw_write_arr a st) bw_pad_and_flush)) = Ok out
    /\ (k < 8)%nat
    /\ bytes_bits MsbFirst out = flat_map (op_bits MsbFirst) pre ++ bits ++ repeat false k.
Proof.
  intros Hpre. destruct (from_slice_len bits MsbFirst) as [a [Ea La]]. exists a. split; [exact Ea|]. split; [exact La|].
  destruct (@session_msb_vec (pre ++ [OpArr bits])) as [out [k [R [Hk B]]]].
  { apply Forall_app. split; [exact Hpre|]. repeat constructor. }
  exists out, k. split; [|split; [exact Hk|]].
  - rewrite <- R. unfold run_vec, session.
    destruct (wrote_ops Hpre (bw_new_inv MsbFirst) eq_refl) as [bytes [st [E [I [O [U P]]]]]].
    assert (G : forall w, io_bind (do_ops pre (bw_new MsbFirst)) (fun st => io_bind (bw_write_arr a st) bw_pad_and_flush) w
                = io_bind (do_ops (pre ++ [OpArr bits]) (bw_new MsbFirst)) bw_pad_and_flush w).
    { intros w.
      assert (G1 : forall l st w, bw_iter do_op (l ++ [OpArr bits]) st w
                   = io_bind (bw_iter do_op l st) (do_op (OpArr bits)) w).
      { induction l as [|op l IHl]; intros st0 w0; cbn [bw_iter app].
        - unfold io_bind, io_ret. destruct (do_op (OpArr bits) st0 w0) as [[]]; reflexivity.
        - unfold io_bind. destruct (do_op op st0 w0) as [[st1| |] w1]; try reflexivity.
          rewrite IHl. unfold io_bind. reflexivity. }
      unfold do_ops. unfold io_bind at 3. rewrite G1. unfold io_bind at 1 3.
      pose proof (E w) as Ew. unfold do_ops in Ew. rewrite Ew. unfold put, io_bind, io_lift.
      destruct (write_all bytes w) as [[[]| |] w1]; try reflexivity.
      cbn [do_op]. rewrite O. cbn [bw_new bw_order]. rewrite Ea. reflexivity. }
    rewrite G. reflexivity.
  - rewrite B, flat_map_app. cbn [flat_map op_bits]. now rewrite app_nil_r, <- app_assoc.
Qed.

(** C09: LSB order *)
Lemma lsb_aligned bits : (length bits mod 8 = 0)%nat ->
  exists out, run_vec (session LsbFirst (map OpBit bits)) = Ok out /\ bytes_bits LsbFirst out = bits.
Proof.
  intros Hl.
  assert (W : wrote (do_ops (map OpBit bits) (bw_new LsbFirst)) (bw_new LsbFirst) bits).
  { replace bits with (flat_map (op_bits LsbFirst) (map OpBit bits)) at 2.
    - apply wrote_iter; [apply bw_new_inv|]. intros op st Hop I O. apply in_map_iff in Hop as [b [<- _]].
      now apply wrote_bit.
    - clear. induction bits; cbn; congruence. }
  destruct W as [bytes [st [E [I [O [U P]]]]]]. exists bytes.
  assert (P0 : pending (bw_new LsbFirst) = []) by reflexivity. rewrite P0 in P. cbn [app] in P.
  assert (Hz : bit_count st = 0%N).
  { pose proof (f_equal (@length bool) P) as L. rewrite app_length, bytes_bits_length in L.
    unfold pending in L. rewrite pend_length in L. destruct I as [I _].
    rewrite L in Hl. rewrite Nat.add_comm, Nat.mul_comm, Nat.mod_add in Hl by lia.
    rewrite Nat.mod_small in Hl by lia. lia. }
  split.
  - unfold run_vec, session. rewrite (@put_bind_run _ _ _ _ bytes st [] (Ok st)).
    + rewrite app_nil_r. reflexivity.
    + exact E.
    + intros w' Hw'. rewrite (pad_and_flush_run st w' Hw'). unfold pad_bytes. rewrite Hz. reflexivity.
  - rewrite P. unfold pending. rewrite Hz. change (N.to_nat 0) with 0%nat. rewrite pend_0, app_nil_r.
    reflexivity.
Qed.

Lemma lsb_unaligned_byte bits n : (length bits mod 8 <> 0)%nat ->
  run_vec (do_ops (map OpBit bits ++ [OpByte n]) (bw_new LsbFirst)) = Panic.
Proof.
  intros Hl.
  assert (W : wrote (do_ops (map OpBit bits) (bw_new LsbFirst)) (bw_new LsbFirst) bits).
  { replace bits with (flat_map (op_bits LsbFirst) (map OpBit bits)) at 2.
    - apply wrote_iter; [apply bw_new_inv|]. intros op st Hop I O. apply in_map_iff in Hop as [b [<- _]].
      now apply wrote_bit.
    - clear. induction bits; cbn; congruence. }
  destruct W as [bytes [st [E [I [O [U P]]]]]].
  assert (P0 : pending (bw_new LsbFirst) = []) by reflexivity. rewrite P0 in P. cbn [app] in P.
  assert (Hz : bit_count st <> 0%N).
  { intros Hz. pose proof (f_equal (@length bool) P) as L. rewrite app_length, bytes_bits_length in L.
    unfold pending in L. rewrite pend_length, Hz in L.
    apply Hl. rewrite L. rewrite Nat.add_comm, Nat.mul_comm, Nat.mod_add by lia. reflexivity. }
  assert (E2 : emits (do_ops (map OpBit bits ++ [OpByte n]) (bw_new LsbFirst)) (bytes ++ []) Panic).
  { assert (G1 : forall l st w, bw_iter do_op (l ++ [OpByte n]) st w
                   = io_bind (bw_iter do_op l st) (do_op (OpByte n)) w).
    { induction l as [|op l IHl]; intros st0 w0; cbn [bw_iter app].
      - unfold io_bind, io_ret. destruct (do_op (OpByte n) st0 w0) as [[]]; reflexivity.
      - unfold io_bind. destruct (do_op op st0 w0) as [[st1| |] w1]; try reflexivity.
        rewrite IHl. unfold io_bind. reflexivity. }
    eapply emits_ext; [intros w; apply G1|]. apply emits_bind with (a := st); [exact E|].
    cbn [do_op]. unfold bw_write_byte. destruct (N.eqb_spec (bit_count st) 0); [contradiction|].
    rewrite O. cbn [bw_new bw_order bo_eqb negb]. apply emits_panic. }
  rewrite (emits_run_vec E2). reflexivity.
Qed.

Lemma lsb_short_flush_zero bits : (1 <= length bits <= 4)%nat ->
  run_vec (session LsbFirst (map OpBit bits)) = Ok [0%N].
Proof.
  intros H.
  destruct bits as [|[] [|[] [|[] [|[] [|]]]]]; cbn [length] in H; try lia; vm_compute; reflexivity.
Qed.

Lemma list_yields_all {A} (l : list A) : yields_all list_next l l.
Proof.
  exists [], []. split; [|reflexivity]. rewrite <- (app_nil_r l) at 1. apply yields_list.
Qed.
Lemma session_msb_read ops : Forall op_ok ops ->
  exists out k, run_vec (session MsbFirst ops) = Ok out /\ (k < 8)%nat /\
    yields_all (br_next list_next MsbFirst) (bit_reader out)
               (flat_map (op_bits MsbFirst) ops ++ repeat false k).
Proof.
  intros H. destruct (session_msb_vec H) as [out [k [R [Hk B]]]]. exists out, k.
  split; [exact R|]. split; [exact Hk|]. rewrite <- B. apply br_all, list_yields_all.
Qed.
Lemma session_msb_short ops n : Forall op_ok ops ->
  exists out, run_vec (session MsbFirst ops) = Ok out /\
    written (snd (session MsbFirst ops (short_writer n))) = firstn n out /\
    ((exists st, fst (session MsbFirst ops (short_writer n)) = Ok st) <-> (length out <= n)%nat) /\
    fst (session MsbFirst ops (short_writer n)) <> Panic.
Proof.
  intros H. destruct (session_msb H) as [out [st [k [Hk [U [B R]]]]]]. exists out.
  split; [unfold run_vec; rewrite (R vec_writer eq_refl); reflexivity|].
  rewrite (R (short_writer n) eq_refl). unfold put, io_bind, write_all, short_writer.
  cbn [room written flush_fails]. destruct (Nat.leb_spec (length out) n) as [Hn|Hn]; cbn.
  - split; [now rewrite firstn_all2|]. split; [split; eauto|discriminate].
  - split; [reflexivity|]. split; [split; [intros [? E]; discriminate|lia]|discriminate].
Qed.
Lemma nth_doc n i bo : (i < 8)%nat -> nth_error (byte_bits bo n) i = Some (nth_bit n (N.of_nat i) bo).
Proof.
  intros Hi. do 8 (destruct i as [|i]; [destruct bo; unfold byte_bits; cbn [map nth_error];
    first [rewrite nth_bit_lsb by lia|rewrite nth_bit_msb by lia]; reflexivity|]). lia.
Qed.
Lemma lsb_session_refuted : exists ops, Forall op_ok ops /\
  ~ exists out k, run_vec (session LsbFirst ops) = Ok out /\ (k < 8)%nat /\
      bytes_bits LsbFirst out = flat_map (op_bits LsbFirst) ops ++ repeat false k.
Proof.
  exists [OpBit true]. split; [repeat constructor|]. intros [out [k [R [_ B]]]].
  vm_compute in R. injection R as <-. cbn in B. discriminate.
Qed.
