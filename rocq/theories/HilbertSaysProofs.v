(** * Proofs about what hilbert(rle) and the Huffman decoder print *)
From Verif Require Import Base Ser SerSpec SerProofs Bit BitSpec BitProofs Utils Huf HufSpec HufProofs HufTop UtilsProofs Dict DictSpec DictProofs DictEnc Back BackSpec
  Img Float HilbertC CodecSpec CodecBytes CodecZip CodecHilbert CodecApprox CodecTop ClusterC ClusterSpec Prs Select Bench ForeignSpec ForeignKeeps ForeignTop ForeignZip AcceptSpec AcceptProofs Says BackSays BackSaysProofs HilbertSays HilbertSaysSpec.
From Coq Require Import ZifyBool ZifyNat ZifyN.

(** ** Erasing the output *)
Section Erase.
  Context {T : Type} (C : criteria T).
  Lemma erase_loop iter : forall c count, snd (rle_loop_says C iter c count) = rle_loop C iter c count.
  Proof.
    induction iter as [|x iter IH]; intros c count; [reflexivity|]. cbn [rle_loop_says rle_loop].
    destruct (accept C x c) as [[[|] c']| |]; cbn [res_bind snd]; try reflexivity.
    destruct (count + 1 =? 255)%N; [reflexivity|apply IH].
  Qed.
  Lemma erase_next (r : rle C) : snd (rle_next_says r) = rle_next r.
  Proof.
    unfold rle_next_says, rle_next. cbv zeta.
    destruct (rl_last r) as [x|]; [|destruct (rl_iter r) as [|x it]]; [| reflexivity |];
      rewrite <- erase_loop; destruct (rle_loop_says C _ _ 1%N) as [o [[count r']| |]]; cbn [snd]; try reflexivity;
      destruct (end_repetition C (rl_crit r')) as [[col c]| |]; reflexivity.
  Qed.
  Lemma erase_write (ser_t : T -> io unit) fuel : forall (r : rle C) w, snd (rle_write_says ser_t fuel r w) = rle_write ser_t fuel r w.
  Proof.
    induction fuel as [|fuel IH]; intros r w; [reflexivity|]. cbn [rle_write_says rle_write].
    rewrite <- erase_next. destruct (rle_next_says r) as [o [[[n c]| |] r']]; cbn [snd].
    - unfold after. pose proof (erase_bind (hush (M := notice) (ser_u8 n)) (ser_u8 n)
        (fun _ => says_bind (hush (ser_t c)) (fun _ => rle_write_says ser_t fuel r')) (fun _ => io_bind (ser_t c) (fun _ => rle_write ser_t fuel r'))) as H.
      specialize (H (fun _ => eq_refl)). rewrite <- (H ltac:(intros [] s; apply (erase_bind (hush (M := notice) (ser_t c)) (ser_t c)); [reflexivity|intros [] s2; apply IH])).
      now destruct (says_bind (hush (ser_u8 n)) _ w).
    - reflexivity.
    - reflexivity.
  Qed.

  (** ** When the limit is reported *)
  Lemma loop_notice iter : forall c count n r, (count < 255)%N -> snd (rle_loop_says C iter c count) = Ok (n, r) ->
    fst (rle_loop_says C iter c count) = if (n =? 255)%N then [MaxReached n] else [].
  Proof.
    induction iter as [|x iter IH]; intros c count n r HC H; cbn [rle_loop_says] in *.
    - cbn [snd fst] in *. injection H as <- _. destruct (N.eqb_spec count 255) as [E|E]; [lia|reflexivity].
    - destruct (accept C x c) as [[[|] c']| |]; cbn [snd] in H; try discriminate.
      + destruct (N.eqb_spec (count + 1) 255) as [E|E].
        * cbn [snd fst] in *. injection H as <- _. rewrite E. reflexivity.
        * refine (IH _ _ _ _ _ H). lia.
      + cbn [fst]. injection H as <- _. destruct (N.eqb_spec count 255) as [E|E]; [lia|reflexivity].
  Qed.
  Lemma next_notice (r : rle C) n x r' : rle_next r = (Ok (n, x), r') ->
    fst (rle_next_says r) = if (n =? 255)%N then [MaxReached n] else [].
  Proof.
    rewrite <- erase_next. unfold rle_next_says. cbv zeta.
    destruct (rl_last r) as [y|]; [|destruct (rl_iter r) as [|y it]]; [| discriminate |];
    match goal with |- context [rle_loop_says C ?i ?c 1%N] => pose proof (loop_notice i c 1) as H; destruct (rle_loop_says C i c 1%N) as [o [[count r2]| |]] end;
    cbn [snd fst] in *; try discriminate; (destruct (end_repetition C (rl_crit r2)) as [[col c]| |]; try discriminate);
    intros E; injection E as -> _ _; apply (H n r2); (lia || reflexivity).
  Qed.
  Lemma end_notice (r r' : rle C) : rle_next r = (Err, r') -> fst (rle_next_says r) = [].
  Proof.
    rewrite <- erase_next. unfold rle_next_says. cbv zeta.
    destruct (rl_last r) as [y|]; [|destruct (rl_iter r) as [|y it]]; [| reflexivity |];
    match goal with |- context [rle_loop_says C ?i ?c 1%N] => destruct (rle_loop_says C i c 1%N) as [o [[count r2]| |]] end;
    cbn [snd fst] in *; try discriminate; (destruct (end_repetition C (rl_crit r2)) as [[col c]| |]; discriminate).
  Qed.
End Erase.

Lemma erase_hilbert scan fuel m im w : snd (hilbert_says scan fuel m im w) = hilbert_encode scan fuel m im w.
Proof.
  unfold hilbert_says, hilbert_encode. apply erase_bind; [reflexivity|]. intros [] s. cbv zeta.
  destruct m as [d|].
  - destruct (feq d (f64_of_N 0)); rewrite erase_utter; apply erase_bind; try reflexivity; intros l s'; apply erase_write.
  - apply erase_bind; [reflexivity|]. reflexivity.
Qed.

(** ** The lines of all runs *)
Lemma reported_cons {T} (run : list T) runs : reported (run :: runs) = (if (N.of_nat (length run) =? 255)%N then [MaxReached (N.of_nat (length run))] else []) ++ reported runs.
Proof.
  unfold reported. cbn [filter]. replace (N.of_nat (length run) =? 255)%N with (length run =? 255)%nat by lia.
  now destruct (length run =? 255)%nat.
Qed.
Lemma bind_hush_fst {M A B} (m : io A) (f : A -> says M writer B) w :
  fst (says_bind (hush m) f w) = match m w with (Ok a, w') => fst (f a w') | _ => [] end.
Proof. unfold says_bind, hush. destruct (m w) as [[a| |] w']; try reflexivity. now destruct (f a w'). Qed.
Lemma begun_step {T} k (x : T) l : begun (Some k) (x :: l) = x :: if (12 <=? k)%nat then begun (Some (k - 12)%nat) l else [].
Proof.
  unfold begun. destruct (Nat.leb_spec 12 k).
  - replace (k / 12)%nat with (S ((k - 12) / 12)).
    + reflexivity.
    + replace k with (k - 12 + 1 * 12)%nat at 2 by lia. rewrite Nat.div_add by lia. lia.
  - rewrite Nat.div_small by lia. reflexivity.
Qed.
Lemma write_notices {C : criteria (rgb N)} (colour : list (rgb N) -> rgb N) runs : forall (r : rle C) fuel w,
  yields_all rle_next r (coded colour runs) -> Forall run_ok (coded colour runs) -> (length runs < fuel)%nat ->
  fst (rle_write_says (ser (TRgb TU8)) fuel r w) = reported (begun (room w) runs).
Proof.
  induction runs as [|run runs IH]; intros r fuel w (s1 & s2 & Hy & Hn) HR HL; (destruct fuel as [|fuel]; [cbn in HL; lia|]); cbn [rle_write_says]; change (val (TRgb TU8)) with (rgb N).
  - inversion Hy; subst. pose proof (end_notice _ _ _ Hn) as E. rewrite <- erase_next in Hn.
    destruct (rle_next_says s1) as [o [a s]]. cbn [fst snd] in *. subst o. injection Hn as -> ->.
    unfold begun. destruct (room w); [rewrite firstn_nil|]; reflexivity.
  - cbn [coded map] in Hy, HR. apply yields_cons_inv in Hy as (s3 & E & Hy). apply Forall_cons_iff in HR as [[Hc Hr] HR]. cbn [fst snd] in Hc, Hr.
    pose proof (next_notice _ _ _ _ _ E) as EN. rewrite <- erase_next in E. destruct (rle_next_says r) as [o [a s]]. cbn [fst snd] in *. injection E as -> ->.
    set (n := N.of_nat (length run)) in *. set (c := colour run) in *.
    assert (EM : emits (io_bind (ser_u8 n) (fun _ => ser (TRgb TU8) c)) (n :: pixel_bytes c) (Ok tt)).
    { change (n :: pixel_bytes c) with ([n] ++ pixel_bytes c). eapply emits_bind; [|apply pixel_emits; exact Hr].
      assert (Hn8 : u8_ok n) by (unfold u8_ok; lia). exact (so_ok (ser_ty_ok TU8) n Hn8 eq_refl). }
    assert (EW : fst (after o (says_bind (hush (ser_u8 n)) (fun _ => says_bind (hush (ser (TRgb TU8) c)) (fun _ => rle_write_says (ser (TRgb TU8)) fuel s3))) w)
      = o ++ match io_bind (ser_u8 n) (fun _ => ser (TRgb TU8) c) w with (Ok _, w') => fst (rle_write_says (ser (TRgb TU8)) fuel s3 w') | _ => [] end).
    { unfold after. pose proof (bind_hush_fst (ser_u8 n) (fun _ => says_bind (hush (ser (TRgb TU8) c)) (fun _ => rle_write_says (C := C) (ser (TRgb TU8)) fuel s3)) w) as H.
      destruct (says_bind (hush (ser_u8 n)) _ w) as [o2 r2]. cbn [fst] in *. rewrite H. f_equal. unfold io_bind.
      destruct (ser_u8 n w) as [[[]| |] w1]; try reflexivity. rewrite bind_hush_fst. destruct (ser (TRgb TU8) c w1) as [[[]| |] w2]; reflexivity. }
    etransitivity; [exact EW|]. clear EW. rewrite (EM w), EN. pose proof (put_room (n :: pixel_bytes c) w) as HP.
    assert (L12 : length (n :: pixel_bytes c) = 12%nat) by (destruct c as [[c1 c2] c3]; reflexivity). rewrite L12 in HP.
    destruct (room w) as [k|].
    + rewrite begun_step, reported_cons. fold n. f_equal.
      destruct (put (n :: pixel_bytes c) (Ok tt) w) as [[[]| |] w'].
      * destruct HP as [HP E2]. replace (12 <=? k)%nat with true by lia. rewrite <- E2.
        apply IH; [exists s1, s2; auto|exact HR|cbn in HL; lia].
      * destruct HP as (k' & [= <-] & HP). now replace (12 <=? k)%nat with false by lia.
      * destruct HP.
    + cbn [begun]. rewrite reported_cons. fold n. f_equal.
      destruct (put (n :: pixel_bytes c) (Ok tt) w) as [[[]| |] w'].
      * change runs with (begun None runs). rewrite <- HP. apply IH; [exists s1, s2; auto|exact HR|cbn in HL; lia].
      * destruct HP as (k' & [=] & _).
      * destruct HP.
Qed.

Lemma hilbert_notices scan fuel d im : img_ok im -> Forall (inside (im_w im) (im_h im)) (scan (im_w im) (im_h im)) ->
  (length (scan (im_w im) (im_h im)) < fuel)%nat ->
  exists runs, greedy_runs (joining d) (colours im (scan (im_w im) (im_h im))) runs
  /\ forall w, fst (hilbert_says scan fuel (RLE d) im w) =
     match room w with
     | None => coding d :: reported runs
     | Some k => if (k <? 8)%nat then [] else coding d :: reported (begun (Some (k - 8)%nat) runs)
     end.
Proof.
  intros Hi Hs HL. set (ps := scan (im_w im) (im_h im)) in *. pose proof Hi as (Hw & Hh & _).
  assert (Lc : length (colours im ps) = length ps) by apply map_length.
  assert (HX : exists runs (colour : list (rgb N) -> rgb N), greedy_runs (joining d) (colours im ps) runs /\ Forall run_ok (coded colour runs)
    /\ if feq d (f64_of_N 0) then yields_all rle_next (rle_exact rgb_eqb (colours im ps)) (coded colour runs)
       else yields_all rle_next (rle_approx (colours im ps) d) (coded colour runs)).
  { unfold joining. destruct (feq d (f64_of_N 0)).
    - destruct (exact_coded _ (colours_ok _ ps Hi)) as (runs & G & Y & R & _). exists runs, (hd black). auto.
    - destruct (approx_runs d _ (colours_ok _ ps Hi)) as (runs & G & Y & R). exists runs, mean_round. auto. }
  destruct HX as (runs & colour & G & R & Y). exists runs. split; [exact G|]. intros w.
  pose proof (runs_count _ _ _ G) as RC. rewrite Lc in RC.
  unfold hilbert_says. rewrite bind_hush_fst, (dims_emits _ _ Hw Hh w).
  pose proof (put_room (le32 (im_w im) ++ le32 (im_h im)) w) as HP. change (length (le32 (im_w im) ++ le32 (im_h im))) with 8%nat in HP.
  assert (HB : forall w', fst ((if feq d (f64_of_N 0)
             then says_bind (utter UsingExact) (fun _ =>
                  says_bind (hush (io_lift (linearize_rect scan im))) (fun l =>
                  rle_write_says (ser (TRgb TU8)) fuel (rle_exact rgb_eqb (map to_rgb l))))
             else says_bind (utter UsingApprox) (fun _ =>
                  says_bind (hush (io_lift (linearize_rect scan im))) (fun l =>
                  rle_write_says (ser (TRgb TU8)) fuel (rle_approx (map to_rgb l) d)))) w') = coding d :: reported (begun (room w') runs)).
  { intros w'. unfold coding. rewrite (linearize_ok scan im Hi Hs).
    assert (EC : map to_rgb (map (pixel_at im) (scan (im_w im) (im_h im))) = colours im ps) by (unfold colours; now rewrite map_map).
    destruct (feq d (f64_of_N 0)); unfold says_bind at 1; unfold utter; cbv iota beta.
    - pose proof (bind_hush_fst (M := notice) (io_lift (Ok (map (pixel_at im) (scan (im_w im) (im_h im)))))
        (fun l => rle_write_says (ser (TRgb TU8)) fuel (rle_exact rgb_eqb (map to_rgb l))) w') as H.
      destruct (says_bind _ _ w') as [o rr]. cbn [fst app] in *. rewrite H. unfold io_lift. cbv iota beta. rewrite EC. f_equal.
      apply (write_notices colour); [exact Y|exact R|lia].
    - pose proof (bind_hush_fst (M := notice) (io_lift (Ok (map (pixel_at im) (scan (im_w im) (im_h im)))))
        (fun l => rle_write_says (ser (TRgb TU8)) fuel (rle_approx (map to_rgb l) d)) w') as H.
      destruct (says_bind _ _ w') as [o rr]. cbn [fst app] in *. rewrite H. unfold io_lift. cbv iota beta. rewrite EC. f_equal.
      apply (write_notices colour); [exact Y|exact R|lia]. }
  destruct (put (le32 (im_w im) ++ le32 (im_h im)) (Ok tt) w) as [[[]| |] w'].
  - rewrite HB. destruct (room w) as [k|].
    + destruct HP as [HP ->]. now replace (k <? 8)%nat with false by lia.
    + now rewrite HP.
  - destruct HP as (k & -> & HP). now replace (k <? 8)%nat with true by lia.
  - destruct HP.
Qed.

(** ** The Huffman decoder *)
Section Ended.
  Context {S : Type} (next : nextf S N).
  Lemma bits_end st st' : br_next next MsbFirst st = (Err, st') -> br_next next MsbFirst st' = (Err, st').
  Proof.
    unfold br_next. destruct (br_buf st) as [|b buf] eqn:EB; [|discriminate]. destruct (br_done st) eqn:ED.
    - intros [= <-]. now rewrite EB, ED.
    - destruct (next (br_src st)) as [[n| |] s]; [|intros [= <-]; reflexivity|discriminate].
      destruct (bit_array n MsbFirst) eqn:EA; [|discriminate]. apply (f_equal (@length _)) in EA. discriminate EA.
  Qed.
  Lemma lookup_end {A} (t : bintrie A) : forall st st', dec_next t next st = (Err, st') -> exists s0, br_next next MsbFirst s0 = (Err, st').
  Proof.
    unfold dec_next. induction t as [v|l IHl r IHr]; intros st st'; cbn [trie_lookup]; [discriminate|].
    destruct (br_next next MsbFirst st) as [[[|]| |] s] eqn:E; intros H; eauto; [|discriminate H]. injection H as <-. eauto.
  Qed.
  Lemma again_end {A} (t : bintrie A) st st' : dec_next t next st = (Err, st') -> dec_next t next st' = (Err, st').
  Proof.
    intros H. destruct (lookup_end t st st' H) as [s0 E]. apply bits_end in E. destruct t as [v|l r]; [discriminate H|].
    unfold dec_next. cbn [trie_lookup]. now rewrite E.
  Qed.
  Lemma times_end {A} (m : rd S A) : forall n acc s s', rd_times m n acc s = (Err, s') -> exists s0, m s0 = (Err, s').
  Proof.
    induction n as [|n IH]; intros acc s s' H; cbn [rd_times] in H; [discriminate|]. unfold rd_bind in H.
    destruct (m s) as [[x| |] s1] eqn:E; [|injection H as <-; eauto|discriminate]. eauto.
  Qed.
End Ended.
Lemma erase_hufman fuel {S} (next : nextf S N) s : snd (hufman_says fuel next s) = hufman_decode fuel next s.
Proof.
  unfold hufman_says, hufman_decode. destruct (create_image_buffer_standard next s) as [[[[w h] b]| |] s1]; try reflexivity.
  destruct (huf_decode_all (deser (TRgb TU8)) fuel next s1) as [[[[t bits]| |] s2]|]; try reflexivity.
  destruct (rd_repeat (dec_next t next) (w * h) bits) as [[l| |] s3]; try reflexivity.
  destruct (dec_next t next s3) as [[x| |] s4]; reflexivity.
Qed.
Lemma hufman_together fuel {S} (next : nextf S N) s :
  fst (hufman_says fuel next s) = [] \/ hufman_says fuel next s = ([SymbolFailed; StreamEnded], Some Err).
Proof.
  unfold hufman_says. destruct (create_image_buffer_standard next s) as [[[[w h] b]| |] s1]; try (left; reflexivity).
  destruct (huf_decode_all (deser (TRgb TU8)) fuel next s1) as [[[[t bits]| |] s2]|]; try (left; reflexivity).
  destruct (rd_repeat (dec_next t next) (w * h) bits) as [[l| |] s3] eqn:E; try (left; reflexivity).
  rewrite rd_repeat_times in E. apply times_end in E as [s0 E]. apply again_end in E. rewrite E. right. reflexivity.
Qed.
Lemma hufman_notices data fuel : Forall u8_ok data -> (length data < fuel)%nat ->
  (hufman_says fuel list_next data = ([SymbolFailed; StreamEnded], Some Err) /\ too_few data)
  \/ (fst (hufman_says fuel list_next data) = [] /\ ~ too_few data).
Proof.
  intros HF HL. unfold hufman_says.
  assert (TF : too_few data -> (8 <= length data)%nat /\ ~ too_large data).
  { intros (w & h & t & hdr & body & (Hw & Hh & H3) & -> & _). split; [rewrite app_length; cbn; lia|].
    rewrite too_large_dims by auto. lia. }
  destruct (create_cases data HF) as [[H1 (s & H2 & _)]|[[H1 (w & h & s & H2 & _)]|(w & h & body & HB & Hd & Hb & Hn & _ & _ & ->)]].
  - rewrite H2. right. split; [reflexivity|]. intros G. apply TF in G. lia.
  - rewrite H2. right. split; [reflexivity|]. intros G. now apply TF in G.
  - unfold huf_decode_all. pose proof HB as (Hw & Hh & H3).
    assert (DD : forall a b r, buffer_fits a b -> data = le32 a ++ le32 b ++ r -> a = w /\ b = h /\ r = body).
    { intros a b r (Iw & Ih & _) E. rewrite Hd in E.
      assert (D : forall a b r0, u32_ok a -> u32_ok b -> deser (TPair TU32 TU32) _ list_next (le32 a ++ le32 b ++ r0) = (Ok (a, b), r0)).
      { intros a' b' r0 Ha Hb'. apply dims_deser; auto. rewrite app_assoc. apply yields_list. }
      pose proof (D w h body Hw Hh) as D1. rewrite E, (D _ _ r Iw Ih) in D1. injection D1 as -> -> ->. auto. }
    destruct (tree_cases (TRgb TU8) fuel body Hb) as [(t & hdr & rest & -> & Hr & HT & ->)|[HT [s ->]]].
    { rewrite Hd in HL. cbn in HL. lia. }
    + rewrite rd_repeat_times. pose proof (br_all MsbFirst (list_all rest)) as Y.
      pose proof (symbols_cases (br_next list_next MsbFirst) t (N.to_nat (w * h)) (bit_reader rest) _ [] Y) as C. change (trie_lookup t (br_next list_next MsbFirst)) with (dec_next t list_next) in C.
      destruct C as [(items & r & s' & Hs & Hl & ->)|[Hs [s' E]]].
      * right. split; [reflexivity|]. intros (a & b & t' & hdr' & body' & F & E & HT' & Hf). destruct (DD _ _ _ F E) as (-> & -> & E3).
        destruct (tree_unique _ _ _ _ _ _ _ HT' HT E3) as (-> & -> & ->). apply (Hf items r Hs). lia.
      * left. rewrite E. apply times_end in E as [s0 E]. apply again_end in E. rewrite E. split; [reflexivity|].
        exists w, h, t, hdr, rest. split; [exact HB|]. split; [exact Hd|]. split; [exact HT|].
        intros items r Sp Eq. apply (Hs items r); [lia|exact Sp].
    + right. split; [reflexivity|]. intros (a & b & t' & hdr' & body' & F & E & HT' & Hf). destruct (DD _ _ _ F E) as (-> & -> & E3). symmetry in E3. now apply (HT t' hdr' body').
Qed.
