(** * Proofs about what the codecs print (C94) *)
From Verif Require Import Base Ser SerSpec SerProofs Utils UtilsProofs Huf HufSpec Dict DictSpec DictEnc Back BackSpec Img Float HilbertC CodecSpec CodecBytes CodecZip CodecHilbert CodecTop Kmeans KmeansSpec ClusterC ClusterSpec VoronoiProofs Select Bench BenchSpec Writers
  TrieStats TrieSpec Says BackSays BackSaysSpec BackSaysTop HilbertSays HilbertSaysSpec HilbertSaysProofs DictSays DictImgSays DictSaysSpec DictSaysTop DictImgProofs HufSays HufSaysProofs HufSaysTop KmeansSays KmeansSaysSpec KmeansSaysTop CodecSays CodecSaysSpec.
From Coq Require Import ZifyBool ZifyNat ZifyN Permutation.

(** ** How many points are clustered *)
Lemma visits_count w h ps : visits_all w h ps -> N.of_nat (length ps) = (w * h)%N.
Proof.
  intros H. rewrite (visits_length _ _ _ H). lia.
Qed.
Lemma colours_few ord im : ord_ok ord -> img_ok im -> (N.of_nat (length (color_counts ord im)) <= BenchSpec.pixels im)%N.
Proof.
  intros Ho Hi. unfold color_counts. rewrite map_length, (Permutation_length (Ho _)).
  assert (HL : (length (count_freqs rgb_eqb (map to_rgb (im_px im))) <= length (map to_rgb (im_px im)))%nat).
  { rewrite <- (map_length fst (count_freqs _ _)). apply NoDup_incl_length; [apply count_freqs_nodup; exact rgb_eqb_ok|].
    intros x Hx. exact (proj1 (count_freqs_keys rgb_eqb_ok _ _) Hx). }
  rewrite map_length in HL. destruct Hi as (_ & _ & _ & E & _). unfold BenchSpec.pixels. revert HL. generalize (length (count_freqs rgb_eqb (map to_rgb (im_px im)))). intros k HL. lia.
Qed.
Lemma points_many im : img_ok im -> N.of_nat (length (pixel_points im)) = BenchSpec.pixels im.
Proof.
  intros Hi. rewrite (pixel_points_eq _ Hi). unfold ClusterSpec.pixels, BenchSpec.pixels. rewrite map_length, row_major_length. lia.
Qed.

(** ** Erasing *)
Lemma erase_after_clusters {T} O (P : point T) points n (f : clusters T -> says codec_line writer unit) f' w :
  sort_ok (or_sort O) -> (n < 2 ^ 31)%N -> (N.of_nat (length points) * n < 2 ^ 64)%N -> (forall c w, snd (f c w) = f' c w) ->
  snd (after_clusters O P points n f w) = option_map (fun m => m w) (with_clusters O P points n f').
Proof.
  intros Hs Hn Hp Hf. unfold after_clusters, with_clusters.
  rewrite <- (cluster_silent P (or_sort O) (or_rng O) Hs points n (or_vfuel O) Hp Hn (or_fuel O) 0).
  destruct (say_cluster P (or_sort O) (or_rng O) (or_fuel O) (or_vfuel O) points n 0) as [o [[[c i]| |]|]]; cbn [snd option_map]; try reflexivity.
  rewrite <- Hf. now destruct (f c w).
Qed.
Lemma erase_as {M} (f : M -> codec_line) (m : says M writer unit) w : snd (says_as f m w) = snd (m w).
Proof. unfold says_as. now destruct (m w). Qed.
Lemma erase_runs {M} (f : M -> codec_line) (m : says M writer unit) w : snd (runs f m w) = Some (snd (m w)).
Proof. unfold runs. now destruct (m w). Qed.
Lemma out_runs {M} (f : M -> codec_line) (m : says M writer unit) w : fst (runs f m w) = map f (fst (m w)).
Proof. unfold runs. now destruct (m w). Qed.
Lemma erase_delta p scan ord H im w : snd (delta_says p scan ord H im w) = delta_encode p scan ord H im w.
Proof.
  unfold delta_says, delta_encode. revert w. apply HufSaysProofs.erase_bind; [reflexivity|intros _].
  apply HufSaysProofs.erase_bind; [reflexivity|intros l]. apply HufSaysProofs.erase_bind; [reflexivity|intros ds]. intros w. apply erase_huf.
Qed.

Lemma encode_silent E nodes c im w : img_ok im -> env_ok E im -> talk_ok E nodes c im ->
  snd (encode_says E nodes c im w) = option_map (fun m => m w) (any_write E c im).
Proof.
  intros Hi [O1 O2 O3 O4 O5 O6 O7] Ht. pose proof (zip_input_len im Hi) as ZL. pose proof (visits_count _ _ _ O6) as VC. unfold BenchSpec.pixels in *.
  destruct c as [n|n| |[d|]| |[|]]; cbn [encode_says any_write talk_ok option_map] in *.
  - destruct Ht as (Hs & Hn & Hp). apply erase_after_clusters; [exact Hs|exact Hn| |].
    + pose proof (colours_few _ _ O1 Hi) as HC. unfold BenchSpec.pixels in *. eapply N.le_lt_trans; [|exact Hp]. now apply N.mul_le_mono_r.
    + intros c. apply HufSaysProofs.erase_bind; [reflexivity|]. intros red w'. rewrite erase_as. apply erase_hufman_encode.
  - destruct Ht as (Hs & Hn & Hp). apply erase_after_clusters; [exact Hs|exact Hn| |reflexivity]. rewrite (points_many _ Hi). exact Hp.
  - rewrite erase_runs. f_equal. apply erase_delta.
  - rewrite erase_runs. f_equal. apply erase_hilbert.
  - rewrite erase_runs. f_equal. destruct (hilbert_zip_output (e_scan E) im (e_fuel E) Hi (visits_inside _ _ _ O6)) as (syms & _ & H); [lia|].
    apply H. unfold BenchSpec.pixels in *. lia.
  - rewrite erase_runs. f_equal. apply erase_hufman_encode.
  - rewrite erase_runs. f_equal. destruct (dict_image_says im (e_fuel E) Hi) as (syms & _ & H); [lia|].
    apply H. unfold BenchSpec.pixels in *. lia.
  - rewrite erase_runs. f_equal. rewrite zip_encode_back. apply back_says_same.
Qed.

(** ** Standard error *)
Definition spoken (l : codec_line) : Prop := on_stderr l = false.
Lemma once_image ord H im : once (hufman_encode_says ord H im).
Proof. unfold hufman_encode_says. apply once_bind; [apply once_hush|]. intros _. apply once_huf. Qed.
Lemma once_delta p scan ord H im : once (delta_says p scan ord H im).
Proof.
  unfold delta_says. apply once_bind; [apply once_hush|intros _]. apply once_bind; [apply once_hush|intros l].
  apply once_bind; [apply once_hush|intros ds]. apply once_huf.
Qed.
Lemma notices_spoken {T} (C : criteria T) iter : forall c n, Forall (fun l => spoken (FromHilbert l)) (fst (rle_loop_says C iter c n)).
Proof.
  induction iter as [|x iter IH]; intros c n; cbn [rle_loop_says]; [constructor|].
  destruct (accept C x c) as [[[] c']| |]; try constructor.
  destruct (n + 1 =? 255)%N; [repeat constructor|apply IH].
Qed.
Lemma spoken_map {M} (f : M -> codec_line) o : (forall m, spoken (f m)) -> Forall spoken (map f o).
Proof. intros H. apply Forall_forall. intros x Hx. apply in_map_iff in Hx as [m [<- _]]. apply H. Qed.
Lemma rle_spoken {T} (C : criteria T) ser_t fuel : forall (r : rle C) w, Forall (fun l => spoken (FromHilbert l)) (fst (rle_write_says ser_t fuel r w)).
Proof.
  induction fuel as [|fuel IH]; intros r w; cbn [rle_write_says]; [constructor|].
  assert (HN : Forall (fun l => spoken (FromHilbert l)) (fst (rle_next_says r))).
  { unfold rle_next_says. destruct (match rl_last r with Some x => Some (x, rl_iter r) | None => match rl_iter r with x :: iter => Some (x, iter) | [] => None end end) as [[x iter]|]; [|constructor].
    pose proof (notices_spoken C iter (start_sequence C x (rl_crit r)) 1%N) as HL.
    destruct (rle_loop_says C iter (start_sequence C x (rl_crit r)) 1%N) as [o l]. exact HL. }
  destruct (rle_next_says r) as [o [[[n x]| |] r']]; unfold after, says_bind, hush; cbn [fst] in HN.
  - destruct (ser_u8 n w) as [[u| |] w1]; cbn [fst app]; try (rewrite app_nil_r; exact HN).
    destruct (ser_t x w1) as [[u2| |] w2]; cbn [fst app]; try (rewrite app_nil_r; exact HN).
    specialize (IH r' w2). destruct (rle_write_says ser_t fuel r' w2) as [o2 q]. cbn [fst app] in *. apply Forall_app. auto.
  - cbn [fst]. rewrite app_nil_r. exact HN.
  - cbn [fst]. rewrite app_nil_r. exact HN.
Qed.
Lemma hilbert_spoken scan fuel d im w : Forall (fun l => spoken (FromHilbert l)) (fst (hilbert_says scan fuel (RLE d) im w)).
Proof.
  unfold hilbert_says, says_bind at 1, hush at 1. destruct (ser (TPair TU32 TU32) (im_w im, im_h im) w) as [[u| |] w1]; cbn [fst]; try constructor.
  assert (HB : forall k, spoken (FromHilbert k) -> forall f : list rgba -> says notice writer unit, (forall l w, Forall (fun l => spoken (FromHilbert l)) (fst (f l w))) ->
    Forall (fun l => spoken (FromHilbert l)) (fst (says_bind (utter k) (fun _ => says_bind (hush (io_lift (linearize_rect scan im))) f) w1))).
  { intros k Hk f Hf. unfold says_bind, utter, hush, io_lift. destruct (linearize_rect scan im) as [l| |]; cbn [fst app]; try (repeat constructor; exact Hk).
    specialize (Hf l w1). destruct (f l w1) as [o r]. cbn [fst app] in *. constructor; assumption. }
  destruct (feq d (f64_of_N 0)).
  - match goal with |- Forall _ (fst (let '(o', r) := ?X in _)) => change X with (says_bind (utter UsingExact) (fun _ => says_bind (hush (io_lift (linearize_rect scan im))) (fun l =>
      rle_write_says (ser (TRgb TU8)) fuel (rle_exact rgb_eqb (map to_rgb l)))) w1) end.
    pose proof (HB UsingExact eq_refl _ (fun l w => rle_spoken _ (ser (TRgb TU8)) fuel (rle_exact rgb_eqb (map to_rgb l)) w)) as H.
    match goal with |- context [let '(_, _) := ?X in _] => destruct X end. exact H.
  - pose proof (HB UsingApprox eq_refl _ (fun l w => rle_spoken _ (ser (TRgb TU8)) fuel (rle_approx (map to_rgb l) d) w)) as H.
    match goal with |- context [let '(_, _) := ?X in _] => destruct X end. exact H.
Qed.
Lemma once_runs (m : says cry writer unit) w : once m ->
  Forall spoken (fst (runs FromHuffman m w)) \/ exists o w', runs FromHuffman m w = (o ++ [FromHuffman CodeLost], Some (Panic, w')) /\ Forall spoken o.
Proof.
  intros H. unfold runs. destruct (H w) as [E|[w' E]].
  - left. destruct (m w) as [o r]. cbn [fst] in *. subst o. constructor.
  - right. rewrite E. exists [], w'. split; [reflexivity|constructor].
Qed.
Lemma encode_stderr E nodes c im w :
  Forall spoken (fst (encode_says E nodes c im w))
  \/ exists o w', encode_says E nodes c im w = (o ++ [FromHuffman CodeLost], Some (Panic, w')) /\ Forall spoken o
     /\ match c with Hufman | Delta | ClusterColors _ => True | _ => False end.
Proof.
  destruct c as [n|n| |[d|]| |[|]]; cbn [encode_says].
  - unfold cluster_colors_says, after_clusters.
    destruct (say_cluster _ _ _ _ _ _ _ _) as [o [[[cl i]| |]|]]; try (left; apply spoken_map; reflexivity).
    unfold says_bind, hush, io_lift. destruct (recolor (reduced_colors cl) im) as [red| |];
      try (left; cbn [fst]; rewrite app_nil_r; apply spoken_map; reflexivity).
    unfold says_as. destruct (once_image (e_ord2 E) (e_heap E) red w) as [Ho|[w' Ho]].
    + left. destruct (hufman_encode_says (e_ord2 E) (e_heap E) red w) as [o2 r2]. cbn [fst] in *. subst o2. cbn [map app fst]. rewrite app_nil_r. apply spoken_map. reflexivity.
    + right. rewrite Ho. exists (map FromClustering o), w'. split; [reflexivity|]. split; [apply spoken_map; reflexivity|exact I].
  - left. unfold voronoi_says, after_clusters.
    destruct (say_cluster _ _ _ _ _ _ _ _) as [o [[[cl i]| |]|]]; try (apply spoken_map; reflexivity).
    unfold hush. cbn [fst]. rewrite app_nil_r. apply spoken_map. reflexivity.
  - destruct (once_runs _ w (once_delta (e_profile E) (e_scan E) (e_ord_diff E) (e_heap_diff E) im)) as [H|(o & w' & H & F)]; [now left|right]. exists o, w'. auto.
  - left. rewrite out_runs. apply Forall_map. apply hilbert_spoken.
  - left. rewrite out_runs. apply spoken_map. reflexivity.
  - destruct (once_runs _ w (once_image (e_ord E) (e_heap E) im)) as [H|(o & w' & H & F)]; [now left|right]. exists o, w'. auto.
  - left. rewrite out_runs. apply spoken_map. reflexivity.
  - left. rewrite out_runs. apply spoken_map. reflexivity.
Qed.

(** ** Success *)
Lemma reported_repeat {A} (l : list (list A)) : exists n, reported l = repeat (MaxReached 255) n.
Proof.
  induction l as [|x l [n IH]]; [now exists 0%nat|]. unfold reported in *. cbn [filter].
  destruct (length x =? 255)%nat eqn:E; [|now exists n]. apply Nat.eqb_eq in E. exists (S n). cbn [map repeat]. now rewrite IH, E.
Qed.
Lemma once_ok (m : says cry writer unit) w w' : once m -> snd (m w) = (Ok tt, w') -> fst (m w) = [].
Proof. intros H E. destruct (H w) as [Ho|[w2 Ho]]; [exact Ho|]. rewrite Ho in E. discriminate. Qed.
Lemma dict_output_all syms out : dict_output None syms out -> exists n st, out = repeat Converting (S n) ++ [TrieStats st].
Proof. intros (d & c & _ & _ & Hc & st & _ & ->). destruct c as [|c]; [lia|]. exists c, st. reflexivity. Qed.
Lemma clusters_ok {T} O (P : point T) points n f w w' : sort_ok (or_sort O) -> (n < 2 ^ 31)%N -> (N.of_nat (length points) * n < 2 ^ 64)%N ->
  snd (after_clusters O P points n f w) = Some (Ok tt, w') ->
  exists lines k c, fst (after_clusters O P points n f w) = map FromClustering (Grew 0 :: lines ++ [Iterations k]) ++ fst (f c w) /\ snd (f c w) = (Ok tt, w').
Proof.
  intros Hs Hn Hp. unfold after_clusters.
  destruct (say_cluster P (or_sort O) (or_rng O) (or_fuel O) (or_vfuel O) points n 0) as [o [[[c i]| |]|]] eqn:Es; cbn [snd fst]; try discriminate.
  destruct (cluster_output P (or_sort O) (or_rng O) Hs points n (or_vfuel O) Hp Hn (or_fuel O) 0 o c i Es) as (c0 & i0 & lines & k & _ & _ & ->).
  destruct (f c w) as [o2 r2] eqn:Ef. cbn [snd fst]. intros [= ->]. exists lines, (as_i32 (Z.of_N k)), c. rewrite Ef. auto.
Qed.

Lemma encode_prints E nodes c im : img_ok im -> env_ok E im -> talk_ok E nodes c im ->
  forall w', snd (encode_says E nodes c im vec_writer) = Some (Ok tt, w') -> printed c im (fst (encode_says E nodes c im vec_writer)).
Proof.
  intros Hi [O1 O2 O3 O4 O5 O6 O7] Ht w'. pose proof (zip_input_len im Hi) as ZL. pose proof (visits_count _ _ _ O6) as VC. unfold BenchSpec.pixels in *.
  destruct c as [n|n| |[d|]| |[|]]; cbn [encode_says talk_ok printed] in *.
  - destruct Ht as (Hs & Hn & Hp). unfold cluster_colors_says. intros H. apply clusters_ok in H as (lines & k & c & -> & H); [|exact Hs|exact Hn|].
    + exists lines, k. match goal with |- ?a ++ ?b = ?a => assert (b = []) as ->; [|apply app_nil_r] end.
      unfold says_bind, hush, io_lift in *. destruct (recolor (reduced_colors c) im) as [red| |]; try discriminate H.
      unfold says_as in *. pose proof (once_ok _ vec_writer w' (once_image (e_ord2 E) (e_heap E) red)) as HO.
      destruct (hufman_encode_says (e_ord2 E) (e_heap E) red vec_writer) as [o2 r2]. cbn [fst snd app] in *. now rewrite (HO H).
    + pose proof (colours_few _ _ O1 Hi) as HC. unfold BenchSpec.pixels in *. eapply N.le_lt_trans; [|exact Hp]. now apply N.mul_le_mono_r.
  - destruct Ht as (Hs & Hn & Hp). unfold voronoi_says. intros H. apply clusters_ok in H as (lines & k & c & -> & _); [|exact Hs|exact Hn|].
    + exists lines, k. unfold hush. cbn [fst]. now rewrite app_nil_r.
    + rewrite (points_many _ Hi). exact Hp.
  - rewrite erase_runs, out_runs. intros H. injection H as H. now rewrite (once_ok _ _ _ (once_delta _ _ _ _ im) H).
  - rewrite out_runs. intros _. destruct (hilbert_notices (e_scan E) (e_fuel E) d im Hi (visits_inside _ _ _ O6)) as (runs & _ & H); [lia|].
    rewrite (H vec_writer). cbn [room vec_writer]. destruct (reported_repeat runs) as [n ->]. now exists n.
  - rewrite out_runs. intros _. destruct (hilbert_zip_output (e_scan E) im (e_fuel E) Hi (visits_inside _ _ _ O6)) as (syms & _ & H); [lia|].
    destruct (H nodes vec_writer) as [_ H2]; [unfold BenchSpec.pixels in *; lia|]. apply dict_output_all in H2 as (n & st & ->). now exists n, st.
  - rewrite erase_runs, out_runs. intros H. injection H as H. now rewrite (once_ok _ _ _ (once_image _ _ im) H).
  - rewrite out_runs. intros _. destruct (dict_image_says im (e_fuel E) Hi) as (syms & _ & H); [lia|].
    destruct (H (e_profile E) (e_caps E) nodes vec_writer) as [_ H2]; [unfold BenchSpec.pixels in *; lia|]. apply dict_output_all in H2 as (n & st & ->). now exists n, st.
  - rewrite erase_runs, out_runs. intros H. injection H as H. rewrite back_says_same in H. eexists. split; [reflexivity|].
    eapply (back_says_image (e_profile E) (e_caps E) (e_fuel E) im (written w') Hi O5); [lia|]. rewrite zip_encode_back. unfold run_vec. now rewrite H.
Qed.
(** Only the two codecs that are nothing but the Huffman coder are silent. *)
Lemma printed_nothing c im out : printed c im out -> (out = [] <-> c = Hufman \/ c = Delta).
Proof.
  destruct c as [n|n| |[d|]| |[|]]; cbn [printed].
  - intros (l & k & ->). split; [discriminate|intros [|]; discriminate].
  - intros (l & k & ->). split; [discriminate|intros [|]; discriminate].
  - intros ->. split; auto.
  - intros (k & ->). split; [discriminate|intros [|]; discriminate].
  - intros (k & st & ->). split; [discriminate|intros [|]; discriminate].
  - intros ->. split; auto.
  - intros (k & st & ->). split; [discriminate|intros [|]; discriminate].
  - intros (o & -> & H). split; [|intros [|]; discriminate]. intros E. apply map_eq_nil in E. subst o. revert H. generalize (BenchSpec.pixels im). intros k H. change (0 = 8 + 11 * k)%N in H. lia.
Qed.
Lemma encode_quiet E nodes c im w' : img_ok im -> env_ok E im -> talk_ok E nodes c im ->
  snd (encode_says E nodes c im vec_writer) = Some (Ok tt, w') -> (fst (encode_says E nodes c im vec_writer) = [] <-> c = Hufman \/ c = Delta).
Proof. intros Hi He Ht H. exact (printed_nothing _ _ _ (encode_prints _ _ _ _ Hi He Ht _ H)). Qed.

(** ** Decoders *)
Lemma decode_silent E c data : snd (decode_says E c data) = any_decode E c data.
Proof.
  destruct c as [n|n| |m| |k]; cbn [decode_says any_decode snd]; try reflexivity.
  - pose proof (erase_hufman (e_fuel E) list_next data) as H. destruct (hufman_says (e_fuel E) list_next data) as [o r]. exact H.
  - pose proof (erase_hufman (e_fuel E) list_next data) as H. destruct (hufman_says (e_fuel E) list_next data) as [o r]. exact H.
Qed.
Lemma decode_lines E c data : fst (decode_says E c data) = []
  \/ (decode_says E c data = (map FromHilbert [SymbolFailed; StreamEnded], Some Err) /\ match c with Hufman | ClusterColors _ => True | _ => False end).
Proof.
  destruct c as [n|n| |m| |k]; cbn [decode_says fst]; try (now left);
    destruct (hufman_together (e_fuel E) list_next data) as [H|H];
    destruct (hufman_says (e_fuel E) list_next data) as [o r]; cbn [fst] in H |- *.
  - left. now rewrite H.
  - right. injection H as -> ->. auto.
  - left. now rewrite H.
  - right. injection H as -> ->. auto.
Qed.
