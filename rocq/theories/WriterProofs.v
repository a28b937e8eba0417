(** * What the image encoders leave behind when the writer fails (C70). *)
From Verif Require Import Base Utils Ser Bit Huf Dict Back Img Float HilbertC Kmeans ClusterC Prs Regex Select Bench Writers CodecSpec CodecCases HufTop.

(** A computation that writes [bs] as far as there is room, and fails if there is not
    enough ([strict]: it never panics then).  With [fl] it also works when flushing fails. *)
Definition tidy {A} (strict fl : bool) (m : io A) : Prop :=
  exists bs r, forall w, (fl = false -> flush_fails w = false) ->
  match room w with
  | None => m w = (r, mkW (written w ++ bs) None (flush_fails w))
  | Some k => if (length bs <=? k)%nat then m w = (r, mkW (written w ++ bs) (Some (k - length bs)%nat) (flush_fails w))
              else (fst (m w) = Err \/ strict = false /\ fst (m w) = Panic) /\ snd (m w) = mkW (written w ++ firstn k bs) (Some O) (flush_fails w)
  end.
Section Tidy.
  Variables strict fl : bool.
  Notation tidy := (tidy strict fl).
  Lemma tidy_res {A} (r : res A) : tidy (fun w => (r, w)).
  Proof.
    exists [], r. intros [wr ro ff] H. cbn [room written flush_fails]. rewrite app_nil_r. destruct ro as [k|]; [|reflexivity]. cbn [length Nat.leb]. now rewrite Nat.sub_0_r.
  Qed.
  Lemma tidy_ret {A} (a : A) : tidy (io_ret a).
  Proof. exact (tidy_res (Ok a)). Qed.
  Lemma tidy_fail {A} : tidy (@io_fail A).
  Proof. exact (tidy_res Err). Qed.
  Lemma tidy_panic {A} : tidy (@io_panic A).
  Proof. exact (tidy_res Panic). Qed.
  Lemma tidy_lift {A} (r : res A) : tidy (io_lift r).
  Proof. exact (tidy_res r). Qed.
  Lemma tidy_write bs : tidy (write_all bs).
  Proof.
    exists bs, (Ok tt). intros [wr [k|] ff] H; unfold write_all; cbn [room written flush_fails]; [|reflexivity].
    destruct (length bs <=? k)%nat; [reflexivity|]. cbn. auto.
  Qed.
  Lemma tidy_bind {A B} (m : io A) (f : A -> io B) : tidy m -> (forall a, tidy (f a)) -> tidy (io_bind m f).
  Proof.
    intros (b1 & r & Hm) Hf. destruct r as [a| |].
    2,3: exists b1; eexists; intros w Hw; specialize (Hm w Hw); unfold io_bind; destruct (room w) as [k|]; [|now rewrite Hm];
      destruct (length b1 <=? k)%nat; [now rewrite Hm|]; destruct Hm as [Hr Hs]; destruct (m w) as [[x| |] w']; cbn in *; (destruct Hr as [Hr|[? Hr]]; try discriminate); auto.
    destruct (Hf a) as (b2 & r2 & H2). exists (b1 ++ b2), r2. intros w Hw. specialize (Hm w Hw). unfold io_bind. rewrite app_length.
    destruct (room w) as [k|].
    - destruct (Nat.leb_spec (length b1) k) as [L|L].
      + rewrite Hm. specialize (H2 (mkW (written w ++ b1) (Some (k - length b1)%nat) (flush_fails w))). cbn [room written flush_fails] in H2. specialize (H2 Hw).
        destruct (Nat.leb_spec (length b1 + length b2) k) as [L'|L'].
        * destruct (Nat.leb_spec (length b2) (k - length b1)) as [_|?]; [|lia]. rewrite H2, app_assoc. do 3 f_equal. lia.
        * destruct (Nat.leb_spec (length b2) (k - length b1)) as [?|_]; [lia|]. destruct H2 as [Hr Hs]. split; [exact Hr|]. rewrite Hs, firstn_app, (firstn_all2 b1), app_assoc by lia. reflexivity.
      + destruct (Nat.leb_spec (length b1 + length b2) k) as [?|_]; [lia|]. destruct Hm as [Hr Hs]. rewrite firstn_app, (proj2 (Nat.sub_0_le k (length b1))), firstn_O, app_nil_r by lia.
        destruct (m w) as [[x| |] w']; cbn in *; (destruct Hr as [Hr|[? Hr]]; try discriminate); auto.
    - rewrite Hm. specialize (H2 (mkW (written w ++ b1) None (flush_fails w))). cbn [room written flush_fails] in H2. rewrite (H2 Hw), app_assoc. reflexivity.
  Qed.
  Lemma tidy_iter {A} (f : A -> io unit) l : (forall a, tidy (f a)) -> tidy (io_iter f l).
  Proof. intros H. induction l as [|a l IH]; [apply tidy_ret|]. cbn [io_iter]. apply tidy_bind; [apply H|intros _; exact IH]. Qed.
  Lemma tidy_ser : forall t v, tidy (ser t v).
  Proof.
    induction t as [| | | | | | |a IHa b IHb|a IHa|n a IHa|a IHa]; intros v; cbn [ser]; try apply tidy_write.
    - unfold ser_char. destruct (v <=? 255)%N; [apply tidy_write|apply tidy_fail].
    - unfold ser_pair. apply tidy_bind; [apply IHa|intros _; apply IHb].
    - unfold ser_slice. apply tidy_bind; [apply tidy_write|intros _; apply tidy_iter, IHa].
    - apply tidy_iter, IHa.
    - unfold ser_rgb, ser_slice. apply tidy_bind; [apply tidy_write|intros _; apply tidy_iter, IHa].
  Qed.
  Lemma tidy_trie {A} (sa : A -> io unit) : (forall a, tidy (sa a)) -> forall t, tidy (ser_trie sa t).
  Proof.
    intros H. induction t as [v|l IHl r IHr]; cbn [ser_trie]; (apply tidy_bind; [apply tidy_write|intros _]); [apply H|]. apply tidy_bind; [exact IHl|intros _; exact IHr].
  Qed.
  Lemma tidy_bw_iter {A} (op : A -> bw -> io bw) : (forall a st, tidy (op a st)) -> forall l st, tidy (bw_iter op l st).
  Proof. intros H. induction l as [|a l IH]; intros st; cbn [bw_iter]; [apply tidy_ret|]. apply tidy_bind; [apply H|exact IH]. Qed.
  Lemma tidy_bw_write b st : tidy (bw_write b st).
  Proof. unfold bw_write. destruct (_ =? 8)%N; [|apply tidy_ret]. apply tidy_bind; [apply tidy_write|intros _; apply tidy_ret]. Qed.
  Lemma tidy_bw_write_byte n st : tidy (bw_write_byte n st).
  Proof.
    unfold bw_write_byte. destruct (_ =? 0)%N; [apply tidy_bind; [apply tidy_write|intros _; apply tidy_ret]|]. destruct (negb _); [apply tidy_panic|].
    apply tidy_bind; [apply tidy_write|intros _; apply tidy_ret].
  Qed.
  Lemma tidy_encode {A} (eqb : A -> A -> bool) codes s st : tidy (enc_encode eqb codes s st).
  Proof.
    unfold enc_encode. destruct (hm_get eqb s codes) as [code|]; [|apply tidy_fail]. destruct (_ =? 0)%N; [apply tidy_ret|]. unfold bw_write_arr.
    apply tidy_bind; [apply tidy_bw_iter, tidy_bw_write_byte|]. intros st'. apply tidy_bw_iter. intros a st''. apply tidy_bw_write.
  Qed.
  Lemma tidy_symbol s : tidy (ser_symbol s).
  Proof.
    destruct s as [data|len back]; cbn [ser_symbol]; (apply tidy_bind; [apply tidy_lift|intros clen; apply tidy_bind; [apply tidy_write|intros _]]).
    - apply tidy_iter. intros a. apply tidy_write.
    - apply tidy_bind; [apply tidy_lift|intros _; apply tidy_write].
  Qed.
  Lemma tidy_rle {T} {C : criteria T} (st : T -> io unit) : (forall t, tidy (st t)) -> forall fuel (r : rle C), tidy (rle_write st fuel r).
  Proof.
    intros H. induction fuel as [|fuel IH]; intros r; cbn [rle_write]; [apply tidy_panic|]. destruct (rle_next r) as [[[n c]| |] r']; [|apply tidy_ret|apply tidy_panic].
    apply tidy_bind; [apply tidy_write|intros _]. apply tidy_bind; [apply H|intros _; apply IH].
  Qed.
  Lemma tidy_dict {S} (next : nextf S N) fuel s : tidy (zip_dict_encode next fuel s).
  Proof.
    unfold zip_dict_encode. destruct (dict_enc_new s) as [z| |]; [|apply tidy_panic..]. generalize fuel at 2. intros n. revert z.
    induction n as [|n IH]; intros z; cbn [dict_encode_loop]; [apply tidy_panic|]. destruct (next_pair next fuel z) as [[[[s1 s2]|] z']| |]; [|apply tidy_ret|apply tidy_panic..].
    apply tidy_bind; [apply tidy_write|intros _]. apply tidy_bind; [apply tidy_write|intros _; apply IH].
  Qed.
  Lemma tidy_back {S} (next : nextf S N) pr caps fuel s : tidy (zip_back_encode next pr caps fuel s).
  Proof.
    unfold zip_back_encode, back_encode. generalize (benc_new MAX_RING_BUFFER_SIZE s). generalize fuel at 2. intros n.
    induction n as [|n IH]; intros e; cbn [back_encode_loop]; [apply tidy_panic|]. destruct (next_symbols next MAX_RING_BUFFER_SIZE pr caps fuel e) as [[[|x l]| |] e']; [apply tidy_ret| |apply tidy_panic..].
    apply tidy_bind; [apply tidy_iter, tidy_symbol|intros _; apply IH].
  Qed.
  Lemma tidy_hilbert scan fuel m im : tidy (hilbert_encode scan fuel m im).
  Proof.
    unfold hilbert_encode. apply tidy_bind; [apply (tidy_ser (TPair TU32 TU32))|intros _]. apply tidy_bind; [apply tidy_lift|intros l].
    destruct m as [d|]; [|apply tidy_dict]. destruct (feq d (f64_of_N 0)); apply tidy_rle; intros c; apply (tidy_ser (TRgb TU8)).
  Qed.
  Lemma tidy_zip pr caps fuel k im : tidy (zip_encode pr caps fuel k im).
  Proof. destruct k; [apply tidy_dict|apply tidy_back]. Qed.
  Lemma tidy_voronoi p O n im m : voronoi_encode p O n im = Some m -> tidy m.
  Proof.
    unfold voronoi_encode, with_clusters. destruct (cluster _ _ _ _ _ _ _ _) as [[[c q]| |]|]; intros [= <-]; [|apply tidy_fail|apply tidy_panic].
    repeat (apply tidy_bind; [first [apply (tidy_ser TU32)|apply (tidy_ser TUsize)]|intros _]). apply tidy_iter. intros e. unfold ser_color_pos.
    repeat (apply tidy_bind; [apply (tidy_ser TU32)|intros _]). apply (tidy_ser (TRgb TU8)).
  Qed.
End Tidy.
Lemma tidy_unwrap {A} fl (m : io A) : tidy false fl m -> tidy false fl (io_unwrap m).
Proof.
  intros (bs & r & H). exists bs, (unwrap r). intros w Hw. specialize (H w Hw). unfold io_unwrap. destruct (room w) as [k|]; [|now rewrite H].
  destruct (length bs <=? k)%nat; [now rewrite H|]. destruct H as [Hr Hs]. destruct (m w) as [[x| |] w']; cbn in *; (destruct Hr as [Hr|[? Hr]]; try discriminate); auto.
Qed.
Lemma tidy_flush st : tidy st false flush.
Proof.
  exists [], (Ok tt). intros [wr ro ff] H. unfold flush. cbn [flush_fails room written] in *. rewrite (H eq_refl), app_nil_r. destruct ro as [k|]; [|reflexivity]. cbn [length Nat.leb]. now rewrite Nat.sub_0_r.
Qed.
(** Everything but the flush at the end *)
Definition flush_last {A} (m : io A) : Prop :=
  exists bs r, forall w, room w = None -> m w = (if flush_fails w then res_bind r (fun _ => Err) else r, mkW (written w ++ bs) None (flush_fails w)).
Lemma flush_last_bind {A B} (m : io A) (f : A -> io B) : tidy false true m -> (forall a, flush_last (f a)) -> flush_last (io_bind m f).
Proof.
  intros (b1 & r & Hm) Hf. assert (T : true = false -> forall w, flush_fails w = false) by discriminate. destruct r as [a| |].
  - destruct (Hf a) as (b2 & r2 & H2). exists (b1 ++ b2), r2. intros w Hw. specialize (Hm w (fun e => T e w)). rewrite Hw in Hm. unfold io_bind. rewrite Hm, H2, app_assoc; reflexivity.
  - exists b1, Err. intros w Hw. specialize (Hm w (fun e => T e w)). rewrite Hw in Hm. unfold io_bind. rewrite Hm. now destruct (flush_fails w).
  - exists b1, Panic. intros w Hw. specialize (Hm w (fun e => T e w)). rewrite Hw in Hm. unfold io_bind. rewrite Hm. now destruct (flush_fails w).
Qed.
Section Huffman.
  Context {A : Type} (eqb : A -> A -> bool) (sa : A -> io unit) (ord : list (A * N) -> list (A * N)) (H : heap (suffix A)).
  Lemma tidy_huf items : (forall a, tidy false false (sa a)) -> tidy false false (huf_encode_all eqb sa ord H items).
  Proof.
    intros Hs. unfold huf_encode_all. apply tidy_bind; [apply tidy_lift|intros t]. apply tidy_bind; [apply tidy_lift|intros codes]. apply tidy_bind; [now apply tidy_trie|intros _].
    apply tidy_bind; [apply tidy_bw_iter; intros a st; apply tidy_unwrap, tidy_encode|intros st]. apply tidy_bind; [|intros _; apply tidy_ret]. unfold bw_pad_and_flush.
    apply tidy_bind; [destruct (_ =? 0)%N; [apply tidy_ret|apply tidy_bind; [apply tidy_write|intros _; apply tidy_ret]]|intros st']. apply tidy_bind; [apply tidy_flush|intros _; apply tidy_ret].
  Qed.
  Lemma huf_flush_last items : (forall a, tidy false true (sa a)) -> flush_last (huf_encode_all eqb sa ord H items).
  Proof.
    intros Hs. unfold huf_encode_all. apply flush_last_bind; [apply tidy_lift|intros t]. apply flush_last_bind; [apply tidy_lift|intros codes]. apply flush_last_bind; [now apply tidy_trie|intros _].
    apply flush_last_bind; [apply tidy_bw_iter; intros a st; apply tidy_unwrap, tidy_encode|intros st].
    assert (X : forall w, io_bind (bw_pad_and_flush st) (fun _ => io_ret tt) w
      = io_bind (if (bit_count st =? 0)%N then io_ret st else io_bind (write_all [shl8 (curr_bits st) (8 - bit_count st)]) (fun _ => io_ret (mkBW 0 0 (bw_order st)))) (fun _ => io_bind flush (fun _ => io_ret tt)) w).
    { intros w. unfold bw_pad_and_flush, io_bind. destruct (if (bit_count st =? 0)%N then io_ret st else _) as [r w']. destruct r as [s| |]; try reflexivity.
      destruct (flush w') as [[x| |] w'']; reflexivity. }
    assert (F : flush_last (io_bind (if (bit_count st =? 0)%N then io_ret st else io_bind (write_all [shl8 (curr_bits st) (8 - bit_count st)]) (fun _ => io_ret (mkBW 0 0 (bw_order st)))) (fun _ => io_bind flush (fun _ => io_ret tt)))).
    { apply flush_last_bind; [destruct (_ =? 0)%N; [apply tidy_ret|apply tidy_bind; [apply tidy_write|intros _; apply tidy_ret]]|intros _].
      exists [], (Ok tt). intros [wr ro ff] Hw. cbn in Hw. subst ro. unfold io_bind, flush. cbn. rewrite app_nil_r. now destruct ff. }
    destruct F as (bs & r & F). exists bs, r. intros w Hw. rewrite X. now apply F.
  Qed.
End Huffman.
Lemma tidy_hufman ord H im : tidy false false (hufman_encode ord H im).
Proof. unfold hufman_encode. apply tidy_bind; [apply (tidy_ser _ _ (TPair TU32 TU32))|intros _]. apply tidy_huf. intros a. apply (tidy_ser _ _ (TRgb TU8)). Qed.
Lemma tidy_delta p scan ord H im : tidy false false (delta_encode p scan ord H im).
Proof.
  unfold delta_encode. apply tidy_bind; [apply (tidy_ser _ _ (TPair TU32 TU32))|intros _]. apply tidy_bind; [apply tidy_lift|intros l]. apply tidy_bind; [apply tidy_lift|intros ds].
  apply tidy_huf. intros a. apply (tidy_ser _ _ sc_ty).
Qed.
Lemma hufman_flush_last ord H im : flush_last (hufman_encode ord H im).
Proof. unfold hufman_encode. apply flush_last_bind; [apply (tidy_ser _ _ (TPair TU32 TU32))|intros _]. apply huf_flush_last. intros a. apply (tidy_ser _ _ (TRgb TU8)). Qed.
Lemma delta_flush_last p scan ord H im : flush_last (delta_encode p scan ord H im).
Proof.
  unfold delta_encode. apply flush_last_bind; [apply (tidy_ser _ _ (TPair TU32 TU32))|intros _]. apply flush_last_bind; [apply tidy_lift|intros l]. apply flush_last_bind; [apply tidy_lift|intros ds].
  apply huf_flush_last. intros a. apply (tidy_ser _ _ sc_ty).
Qed.
Lemma tidy_cluster p O ord ord2 H n im m : cluster_colors_encode p O ord ord2 H n im = Some m -> tidy false false m /\ flush_last m.
Proof.
  unfold cluster_colors_encode, with_clusters. destruct (cluster _ _ _ _ _ _ _ _) as [[[c q]| |]|]; intros [= <-].
  - split; [apply tidy_bind; [apply tidy_lift|intros im'; apply tidy_hufman]|apply flush_last_bind; [apply tidy_lift|intros im'; apply hufman_flush_last]].
  - split; [apply tidy_fail|exists [], Err; intros [wr ro ff] Hw; cbn in *; subst; rewrite app_nil_r; now destruct ff].
  - split; [apply tidy_panic|exists [], Panic; intros [wr ro ff] Hw; cbn in *; subst; rewrite app_nil_r; now destruct ff].
Qed.

(** ** The encoders *)
(** Codecs whose output is a Huffman code *)
Definition huffman_based (c : any_codec) : bool := match c with ClusterColors _ | Delta | Hufman => true | _ => false end.
Lemma any_write_run E c im : any_encode E c im = option_map (fun m => run_vec m) (any_write E c im).
Proof. now destruct c. Qed.
Lemma any_tidy E c im m : any_write E c im = Some m -> (if huffman_based c then tidy false false m /\ flush_last m else forall st fl, tidy st fl m).
Proof.
  destruct c as [n|n| |me| |k]; cbn [any_write huffman_based].
  - apply tidy_cluster.
  - intros H st fl. apply tidy_voronoi with (1 := H).
  - intros [= <-]. split; [apply tidy_delta|apply delta_flush_last].
  - intros [= <-] st fl. apply tidy_hilbert.
  - intros [= <-]. split; [apply tidy_hufman|apply hufman_flush_last].
  - intros [= <-] st fl. apply tidy_zip.
Qed.
Lemma tidy_cut {A} st (m : io A) data : tidy st false m -> run_vec m = Ok data -> forall k, let r := m (short_writer k) in
  ((length data <= k)%nat -> (exists a, fst r = Ok a) /\ written (snd r) = data)
  /\ ((k < length data)%nat -> (fst r = Err \/ st = false /\ fst r = Panic) /\ written (snd r) = firstn k data).
Proof.
  intros (bs & r & H) R k. unfold run_vec in R. rewrite (H vec_writer (fun _ => eq_refl)) in R. cbn [room vec_writer written app] in R. destruct r as [a| |]; try discriminate. injection R as <-.
  specialize (H (short_writer k) (fun _ => eq_refl)). cbn [room short_writer written app flush_fails] in H. cbn zeta. fold (short_writer k) in H.
  destruct (Nat.leb_spec (length bs) k) as [L|L]; split; intros L'; try lia.
  - rewrite H. cbn. eauto.
  - destruct H as [Hr ->]. auto.
Qed.
Lemma cut_output E c im m data : any_write E c im = Some m -> run_vec m = Ok data -> forall k, let r := m (short_writer k) in
  ((length data <= k)%nat -> fst r = Ok tt /\ written (snd r) = data)
  /\ ((k < length data)%nat -> (fst r = Err \/ huffman_based c = true /\ fst r = Panic) /\ written (snd r) = firstn k data).
Proof.
  intros W R k r. apply any_tidy in W. destruct (huffman_based c).
  - destruct W as [W _]. destruct (tidy_cut _ _ _ W R k) as [H1 H2]. split; [intros L; destruct (H1 L) as [([] & ?) ?]; auto|]. intros L. destruct (H2 L) as [[?|[_ ?]] ?]; auto.
  - destruct (tidy_cut _ _ _ (W true false) R k) as [H1 H2]. split; [intros L; destruct (H1 L) as [([] & ?) ?]; auto|]. intros L. destruct (H2 L) as [[?|[? _]] ?]; [auto|discriminate].
Qed.
Lemma no_flush E c im m data : any_write E c im = Some m -> run_vec m = Ok data ->
  written (snd (m unflushable)) = data /\ fst (m unflushable) = (if huffman_based c then Err else Ok tt).
Proof.
  intros W R. apply any_tidy in W. unfold run_vec in R. destruct (huffman_based c).
  - destruct W as [_ (bs & r & H)]. rewrite (H vec_writer eq_refl) in R. cbn in R. rewrite (H unflushable eq_refl). cbn. destruct r; try discriminate. injection R as <-. auto.
  - destruct (W true true) as (bs & r & H). rewrite (H vec_writer ltac:(discriminate)) in R. cbn in R. rewrite (H unflushable ltac:(discriminate)). cbn. destruct r as [[]| |]; try discriminate. injection R as <-. auto.
Qed.

(** ** Aborts *)
(** Two colours in turn *)
Definition stripe : img := mkImg 9 2 (concat (repeat [((1, 2, 3)%N, 255%N); ((200, 100, 0)%N, 255%N)] 9)).
Definition env_stripe : env := mkEnv Release rows (fun l => l) (fun l => l) (fun l => l)
  (@list_heap _) (@list_heap _) (fun _ => 6%nat) (mkOr (fun l => l) (fun _ => 0%N) 50 50) 100 100.
Lemma error_aborts : forall c, In c [Hufman; Delta; ClusterColors 2] ->
  exists E im m k, img_ok im /\ any_write E c im = Some m /\ (exists data, run_vec m = Ok data) /\ fst (m (short_writer k)) = Panic.
Proof.
  assert (I : img_ok stripe). { unfold stripe. split; [reflexivity|]. split; [reflexivity|]. split; [reflexivity|]. split; [reflexivity|]. repeat constructor. }
  intros c H. exists env_stripe, stripe. cbn [In] in H. destruct H as [<-|[<-|[<-|[]]]].
  - eexists. exists 33%nat. split; [exact I|]. split; [reflexivity|]. split; [eexists; vm_compute; reflexivity|vm_compute; reflexivity].
  - eexists. exists 32%nat. split; [exact I|]. split; [reflexivity|]. split; [eexists; vm_compute; reflexivity|vm_compute; reflexivity].
  - eexists. exists 33%nat. split; [exact I|]. split; [vm_compute; reflexivity|]. split; [eexists; vm_compute; reflexivity|vm_compute; reflexivity].
Qed.
