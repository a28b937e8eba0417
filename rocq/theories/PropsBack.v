(** * Properties C22-C29: the look-back compressor (src/zip/back.rs). *)
From Verif Require Import Base Ser SerSpec Dict DictSpec DictProofs Back BackSpec BackProofs BackDec BackLong WriteMore.
From Coq Require Import Sorted.

(** C22: [caps] are the capacities of the repetition buffer, [fuel] bounds the model's
    loops.  Positions are counted in 64 bits. *)
Theorem C22_roundtrip : forall T (next : nextf T N) s l pr caps fuel out,
  delivers next s l -> Forall u8_ok l -> (N.of_nat (length l) < 2 ^ 64)%N -> caps_ok caps -> (length l < fuel)%nat ->
  run_vec (zip_back_encode next pr caps fuel s) = Ok out ->
  forall S (next2 : nextf S N) s2 pr2,
  (forall s2', yields next2 s2 out s2' ->
     exists st, yields (bd_next next2 MAX_RING_BUFFER_SIZE pr2) (zip_back_decode s2) l st /\ bd_iter st = s2')
  /\ (yields_all next2 s2 out -> yields_all (bd_next next2 MAX_RING_BUFFER_SIZE pr2) (zip_back_decode s2) l)
  /\ (delivers next2 s2 out -> delivers (bd_next next2 MAX_RING_BUFFER_SIZE pr2) (zip_back_decode s2) l).
Proof. exact back_roundtrip. Qed.
Print Assumptions C22_roundtrip.
(** nine bytes repeated, then one more *)
Example C22_case : let l := [1; 2; 3; 4; 5; 6; 7; 8; 1; 2; 3; 4; 5; 6; 7; 8; 9]%N in
  let out := [8; 0; 1; 2; 3; 4; 5; 6; 7; 8; 8; 128; 8; 0; 1; 0; 9]%N in
  delivers list_next l l /\ Forall u8_ok l /\ caps_ok (fun _ => 16%nat)
  /\ run_vec (zip_back_encode list_next Debug (fun _ => 16%nat) 18 l) = Ok out
  /\ collect (bd_next list_next MAX_RING_BUFFER_SIZE Debug) 20 (zip_back_decode out) = Some (Ok l).
Proof.
  cbn zeta. split; [apply list_delivers|]. split; [repeat constructor; unfold u8_ok; lia|].
  split; [intros i; lia|]. split; vm_compute; reflexivity.
Qed.

(** C23 *)
Theorem C23_abort : forall T (next : nextf T N) s l pr caps fuel,
  delivers next s l -> caps_ok caps -> (length l < fuel)%nat ->
  exists syms, parses MAX_RING_BUFFER_SIZE [] [] l syms
  /\ run_vec (zip_back_encode next pr caps fuel s) <> Err
  /\ (run_vec (zip_back_encode next pr caps fuel s) = Panic <-> exists x, In x syms /\ (32767 < symbol_len x)%N).
Proof. exact back_abort. Qed.
Print Assumptions C23_abort.
Theorem C23_short_inputs : forall T (next : nextf T N) s l pr caps fuel,
  delivers next s l -> caps_ok caps -> (length l < fuel)%nat -> (N.of_nat (length l) <= 32767)%N ->
  exists out, run_vec (zip_back_encode next pr caps fuel s) = Ok out.
Proof. exact back_short. Qed.
Print Assumptions C23_short_inputs.
Theorem C23_no_larger_bound : exists l, N.of_nat (length l) = 32768%N /\ Forall u8_ok l /\
  forall T (next : nextf T N) s pr caps fuel, delivers next s l -> caps_ok caps -> (length l < fuel)%nat ->
  run_vec (zip_back_encode next pr caps fuel s) = Panic.
Proof. exact back_abort_witness. Qed.
Print Assumptions C23_no_larger_bound.
Theorem C23_constant : forall T (next : nextf T N) s b n pr caps fuel,
  delivers next s (repeat b n) -> (65536 <= N.of_nat n)%N -> caps_ok caps -> (n < fuel)%nat ->
  run_vec (zip_back_encode next pr caps fuel s) = Panic.
Proof. exact back_constant. Qed.
Print Assumptions C23_constant.
Example C23_case : let l := repeat 7%N (N.to_nat 65536) in
  delivers list_next l l /\ run_vec (zip_back_encode list_next Release (fun _ => 16%nat) (S (N.to_nat 65536)) l) = Panic.
Proof.
  cbn zeta. split; [apply list_delivers|]. eapply back_constant; [apply list_delivers|lia|intros i; lia|lia].
Qed.

(** C24 *)
Theorem C24_capacities : forall T (next : nextf T N) s T2 (next2 : nextf T2 N) s2 l pr pr2 caps caps2 fuel fuel2 w,
  delivers next s l -> delivers next2 s2 l -> caps_ok caps -> caps_ok caps2 -> (length l < fuel)%nat -> (length l < fuel2)%nat ->
  zip_back_encode next pr caps fuel s w = zip_back_encode next2 pr2 caps2 fuel2 s2 w.
Proof. exact back_independent. Qed.
Print Assumptions C24_capacities.
(** a repetition of ten bytes, with buffers of six and of many *)
Example C24_case : let l := [1; 2; 3; 4; 5; 6; 7; 8; 9; 10; 1; 2; 3; 4; 5; 6; 7; 8; 9; 10]%N in
  caps_ok (fun _ => 6%nat) /\ caps_ok (fun i => (6 + 100 * i)%nat)
  /\ run_vec (zip_back_encode list_next Debug (fun _ => 6%nat) 21 l) =
     run_vec (zip_back_encode list_next Debug (fun i => (6 + 100 * i)%nat) 21 l).
Proof. cbn zeta. split; [intros i; lia|]. split; [intros i; lia|]. vm_compute; reflexivity. Qed.

(** C25: for every ring size, 65535 included *)
Theorem C25_ring : forall R h pr, (0 < R)%N -> exists rb, rb_write_all R (rb_default R) h = Ok rb
  /\ fst (as_slices rb) ++ snd (as_slices rb) = window R h
  /\ length (window R h) = Nat.min (length h) (N.to_nat R)
  /\ read_pos R rb = N.of_nat (length h)
  /\ (forall pos, (pos < N.of_nat (length h))%N -> rb_contains rb pos = true <-> in_window R h pos)
  /\ (forall pos, in_window R h pos -> iter_starting pr rb pos = Ok (skipn (N.to_nat pos) h))
  /\ (forall pos, in_window R h pos -> exists back, lookback_value R pr rb pos = Ok back
        /\ (1 <= back <= R)%N /\ nth_error h (length h - N.to_nat back) = nth_error h (N.to_nat pos)
        /\ ((N.of_nat (length h) < 2 ^ 64)%N -> lookback_pos R pr rb back = Ok pos)).
Proof. exact ring_view. Qed.
Print Assumptions C25_ring.
Example C25_case : let h := [10; 11; 12; 13; 14]%N in
  rb_write_all 3 (rb_default 3) h = Ok (mkRing [13; 14; 12]%N 2 2)
  /\ in_window 3 h 3 /\ window 3 h = [12; 13; 14]%N
  /\ iter_starting Debug (mkRing [13; 14; 12]%N 2 2) 3 = Ok [13; 14]%N
  /\ (MAX_RING_BUFFER_SIZE = 65535)%N.
Proof. unfold in_window. repeat split; cbn; try lia. Qed.

(** C26 *)
Theorem C26_index : forall R h key, (0 < R)%N -> length key = 6%nat ->
  exists hi, ih_write_all R (ih_new R) h = Ok hi
  /\ let found := start_indices_for (ih_index hi) key (ih_data hi) in
     (forall pos, In pos found <-> in_window R h pos /\ firstn 6 (skipn (N.to_nat pos) h) = key)
     /\ StronglySorted N.lt found.
Proof. exact index_view. Qed.
Print Assumptions C26_index.
(** a ring of ten bytes after eighteen: only the recent occurrences are offered *)
Example C26_case : let h := repeat 5%N 18 in
  match ih_write_all 10 (ih_new 10) h with
  | Ok hi => start_indices_for (ih_index hi) (repeat 5%N 6) (ih_data hi) = [8; 9; 10; 11; 12]%N
  | _ => False
  end.
Proof. vm_compute. reflexivity. Qed.

(** C27 *)
Theorem C27_longest_match : forall T (next : nextf T N) s l pr caps fuel,
  delivers next s l -> caps_ok caps -> (length l < fuel)%nat ->
  exists syms, parses MAX_RING_BUFFER_SIZE [] [] l syms /\ text [] syms = l
  /\ (forall out, run_vec (zip_back_encode next pr caps fuel s) = Ok out -> out = concat (map symbol_bytes syms))
  /\ forall a len back b, syms = a ++ LookBack len back :: b ->
     best_match MAX_RING_BUFFER_SIZE (text [] a) (skipn (length (text [] a)) l) len back.
Proof. exact back_follows. Qed.
Print Assumptions C27_longest_match.
(** "abcdefg" twice with another continuation the second time, then its start once more: the earliest longest match wins *)
Example C27_case : let l := [1; 2; 3; 4; 5; 6; 7; 8; 1; 2; 3; 4; 5; 6; 7; 9; 1; 2; 3; 4; 5; 6; 7]%N in
  run_vec (zip_back_encode list_next Debug (fun _ => 16%nat) 24 l) =
    Ok (concat (map symbol_bytes [Explicit [1; 2; 3; 4; 5; 6; 7; 8]; LookBack 7 8; Explicit [9; 1]; LookBack 6 16]))%N
  /\ best_match 65535 (firstn 17 l) (skipn 17 l) 6 16.
Proof.
  cbn zeta. split; [vm_compute; reflexivity|]. exists 1%N. unfold in_window.
  split; [cbn; lia|]. split; [reflexivity|]. split; [reflexivity|]. split; [lia|]. split.
  - intros q H. cbn [length firstn] in H. unfold match_at.
    assert (D : (q = 0 \/ q = 1 \/ q = 2 \/ q = 3 \/ q = 4 \/ q = 5 \/ q = 6 \/ q = 7 \/ q = 8 \/ q = 9 \/ q = 10 \/ q = 11 \/ q = 12 \/ q = 13 \/ q = 14 \/ q = 15 \/ q = 16)%N) by lia.
    repeat (destruct D as [->|D]; [vm_compute; discriminate|]). subst q. vm_compute; discriminate.
  - intros q H H1. assert (q = 0%N) as -> by lia. vm_compute. reflexivity.
Qed.

(** C01, C02 and C05 for symbols *)
Theorem C01_symbol_roundtrip : forall s, symbol_ok s -> exists bs, run_vec (ser_symbol s) = Ok bs /\
  forall S (next : nextf S N) st st', yields next st bs st' -> deser_symbol S next st = (Ok s, st').
Proof. exact symbol_roundtrip. Qed.
Print Assumptions C01_symbol_roundtrip.
Theorem C02_symbol_canonical : forall S (next : nextf S N) st s st', byte_source next st -> deser_symbol S next st = (Ok s, st') ->
  symbol_ok s /\ exists bs, run_vec (ser_symbol s) = Ok bs /\ yields next st bs st'.
Proof. exact symbol_canonical. Qed.
Print Assumptions C02_symbol_canonical.
Theorem C05_symbol_short_write : forall s k, symbol_ok s ->
  fst (ser_symbol s (short_writer k)) = (if (length (symbol_bytes s) <=? k)%nat then Ok tt else Err)
  /\ written (snd (ser_symbol s (short_writer k))) = firstn k (symbol_bytes s).
Proof. exact symbol_short. Qed.
Print Assumptions C05_symbol_short_write.
Example C05_symbol_case : symbol_ok (Explicit [4; 5; 6]%N)
  /\ ser_symbol (Explicit [4; 5; 6]%N) (short_writer 4) = (Err, mkW [3; 0; 4; 5]%N (Some O) false)
  /\ deser_symbol _ list_next [3; 0; 4; 5; 6; 9]%N = (Ok (Explicit [4; 5; 6]%N), [9%N]).
Proof. split; [split; [cbn; lia|repeat constructor; unfold u8_ok; lia]|]. split; vm_compute; reflexivity. Qed.

(** C28 *)
Theorem C28_symbol_writes : forall s,
  (symbol_ok s -> run_vec (ser_symbol s) = Ok (symbol_bytes s))
  /\ ((32767 < symbol_len s)%N -> forall w, ser_symbol s w = (Panic, w)).
Proof. exact symbol_writes. Qed.
Print Assumptions C28_symbol_writes.
Theorem C28_symbol_roundtrip : forall s, symbol_ok s -> forall S (next : nextf S N) st st',
  yields next st (symbol_bytes s) st' -> deser_symbol S next st = (Ok s, st').
Proof. exact deser_symbol_rt. Qed.
Print Assumptions C28_symbol_roundtrip.
Theorem C28_symbol_outcomes : forall S (next : nextf S N) st, byte_source next st ->
  (exists s st', deser_symbol S next st = (Ok s, st') /\ symbol_ok s /\ yields next st (symbol_bytes s) st')
  \/ (exists st', deser_symbol S next st = (Err, st') /\
      exists p st1, yields next st p st1 /\ next st1 = (Err, st') /\
        ((length p < 2)%nat \/ ((length p < 4)%nat /\ exists len q, (len <= 32767)%N /\ p = le16 (32768 + len) ++ q)))
  \/ (exists st', deser_symbol S next st = (Panic, st') /\
      exists n d st1, (n <= 32767)%N /\ (N.of_nat (length d) < n)%N /\
        yields next st (le16 n ++ d) st1 /\ next st1 = (Err, st')).
Proof. exact deser_symbol_cases. Qed.
Print Assumptions C28_symbol_outcomes.
Theorem C28_truncated : forall s p, symbol_ok s -> strict_prefix p (symbol_bytes s) ->
  forall S (next : nextf S N) st st1 st2, yields next st p st1 -> next st1 = (Err, st2) ->
  deser_symbol S next st =
    (match s with Explicit _ => if (2 <=? length p)%nat then Panic else Err | LookBack _ _ => Err end, st2).
Proof. exact symbol_truncated. Qed.
Print Assumptions C28_truncated.
Example C28_case : symbol_ok (LookBack 32767 65535) /\ symbol_ok (Explicit [1; 2; 3]%N)
  /\ symbol_bytes (LookBack 32767 65535) = [255; 255; 255; 255]%N
  /\ strict_prefix [3; 0; 1; 2]%N (symbol_bytes (Explicit [1; 2; 3]%N))
  /\ fst (deser_symbol _ list_next [3; 0; 1; 2]%N) = Panic
  /\ fst (deser_symbol _ list_next [3; 128; 1]%N) = Err.
Proof.
  repeat split; try reflexivity; cbn; try lia.
  - repeat constructor; unfold u8_ok; lia.
  - exists 3%N, []. reflexivity.
Qed.

(** C29 *)
Theorem C29_image_literals : forall T (next : nextf T N) s w h px pr caps fuel,
  delivers next s (image_bytes w h px) -> caps_ok caps -> (length (image_bytes w h px) < fuel)%nat ->
  exists syms, parses MAX_RING_BUFFER_SIZE [] [] (image_bytes w h px) syms
  /\ (forall data, In (Explicit data) syms -> (length data < 2048)%nat)
  /\ (run_vec (zip_back_encode next pr caps fuel s) = Panic <->
      exists len back, In (LookBack len back) syms /\ (32767 < len)%N).
Proof. exact back_image_abort. Qed.
Print Assumptions C29_image_literals.
Theorem C29_small_images : forall T (next : nextf T N) s w h px pr caps fuel,
  delivers next s (image_bytes w h px) -> caps_ok caps -> (length (image_bytes w h px) < fuel)%nat ->
  (8 + 11 * N.of_nat (length px) <= 32767)%N ->
  exists out, run_vec (zip_back_encode next pr caps fuel s) = Ok out.
Proof. exact back_small_image. Qed.
Print Assumptions C29_small_images.
Theorem C29_one_colour : forall T (next : nextf T N) s w h c n pr caps fuel,
  delivers next s (image_bytes w h (repeat c n)) -> caps_ok caps -> (length (image_bytes w h (repeat c n)) < fuel)%nat ->
  (8938 <= N.of_nat n)%N -> run_vec (zip_back_encode next pr caps fuel s) = Panic.
Proof. exact back_one_colour. Qed.
Print Assumptions C29_one_colour.
Example C29_case : let l := image_bytes 3 1 [(1, 2, 3); (1, 2, 3); (9, 9, 9)]%N in
  delivers list_next l l /\ length l = 41%nat
  /\ run_vec (zip_back_encode list_next Debug (fun _ => 16%nat) 50 l) =
     Ok (concat (map symbol_bytes [Explicit (firstn 32 l); LookBack 6 23; Explicit [9; 9; 9]%N])).
Proof. cbn zeta. split; [apply list_delivers|]. split; [reflexivity|]. vm_compute. reflexivity. Qed.
