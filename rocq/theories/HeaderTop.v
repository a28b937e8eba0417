(** * The dimensions in the files (C76): written first, and found again. *)
From Verif Require Import Base Ser SerSpec SerProofs Utils Huf HufSpec HufTop Dict DictSpec Back BackSpec BackProofs Img Float HilbertC Kmeans ClusterC CodecSpec CodecBytes CodecZip
  Prs Regex Select Bench BenchSpec Writers WriterProofs ForeignSpec ForeignTop AcceptStreams EncodeBytes BenchLossless Diagrams DiagramSpec.
From Coq Require Import ZifyBool ZifyNat ZifyN.

(** A computation that writes [p] and goes on with [f] *)
Lemma head_bind {A B} (m : io A) (f : A -> io B) p a data : emits m p (Ok a) -> tidy false false (f a) ->
  run_vec (io_bind m f) = Ok data -> exists rest, data = p ++ rest.
Proof.
  intros Hm (bs & r & Hf) R. unfold run_vec, io_bind in R. rewrite (Hm vec_writer) in R.
  change (put p (Ok a) vec_writer) with (@Ok A a, mkW p None false) in R. cbv beta iota in R.
  pose proof (Hf (mkW p None false) (fun _ => eq_refl)) as W. cbn [room written flush_fails] in W. rewrite W in R.
  destruct r; try discriminate. cbn [written] in R. exists bs. apply ok_inj in R. now symmetry.
Qed.
Lemma ser_u32_emits w : u32_ok w -> emits (ser TU32 w) (le32 w) (Ok tt).
Proof. intros Hw. exact (so_ok (ser_ty_ok TU32) w Hw eq_refl). Qed.
Lemma hufman_head ord H im data : u32_ok (im_w im) -> u32_ok (im_h im) -> run_vec (hufman_encode ord H im) = Ok data -> exists rest, data = dims im ++ rest.
Proof.
  intros Hw Hh R. eapply head_bind; [apply dims_emits; assumption| |exact R]. cbv beta. apply tidy_huf. intros a. apply (tidy_ser _ _ (TRgb TU8)).
Qed.
Lemma recolor_dims m im im' : recolor m im = Ok im' -> im_w im' = im_w im /\ im_h im' = im_h im.
Proof.
  unfold recolor. destruct (buffer_new _ _); cbn [res_bind]; try discriminate. destruct (res_mapM _ _); cbn [res_map]; try discriminate. intros [= <-]. split; reflexivity.
Qed.
(** ** Every encoder but zip writes the dimensions first. *)
Theorem header_first E c im data : img_ok im -> is_zip c = false -> any_encode E c im = Some (Ok data) -> exists rest, data = dims im ++ rest.
Proof.
  intros (Hw & Hh & _) Hz R. destruct c as [n|n| |m| |k]; try discriminate Hz; cbn [any_encode] in R.
  - unfold cluster_colors_encode, with_clusters in R. destruct (cluster _ _ _ _ _ _ _ _) as [[[c q]| |]|]; cbn [option_map] in R; try discriminate; apply some_inj in R; try discriminate.
    destruct (recolor (reduced_colors c) im) as [im'| |] eqn:Er; try discriminate.
    destruct (recolor_dims _ _ _ Er) as [Ew Eh]. unfold dims. rewrite <- Ew, <- Eh. apply (hufman_head (e_ord2 E) (e_heap E) im'); [rewrite Ew|rewrite Eh|]; assumption.
  - unfold voronoi_encode, with_clusters in R. destruct (cluster _ _ _ _ _ _ _ _) as [[[c q]| |]|]; cbn [option_map] in R; try discriminate; apply some_inj in R; try discriminate.
    assert (T : forall m : unit -> io unit, (forall a, tidy false false (m a)) -> run_vec (io_bind (ser TU32 (im_w im)) (fun _ => io_bind (ser TU32 (im_h im)) m)) = Ok data -> exists rest, data = dims im ++ rest).
    { intros m Hm X. eapply (head_bind (io_bind (ser TU32 (im_w im)) (fun _ => ser TU32 (im_h im))) m).
      - unfold dims. eapply emits_bind; [now apply ser_u32_emits|now apply ser_u32_emits].
      - apply Hm.
      - rewrite <- X. unfold run_vec, io_bind. destruct (ser TU32 (im_w im) vec_writer) as [[a| |] w]; reflexivity. }
    eapply T; [|exact R]. intros a. cbv beta. apply tidy_bind; [apply (tidy_ser _ _ TUsize)|intros _]. apply tidy_iter. intros e. unfold ser_color_pos.
    repeat (apply tidy_bind; [apply (tidy_ser _ _ TU32)|intros _]). apply (tidy_ser _ _ (TRgb TU8)).
  - apply some_inj in R. unfold delta_encode in R. eapply head_bind; [apply dims_emits; assumption| |exact R]. cbv beta. apply tidy_bind; [apply tidy_lift|intros l]. apply tidy_bind; [apply tidy_lift|intros ds].
    apply tidy_huf. intros a. apply (tidy_ser _ _ sc_ty).
  - apply some_inj in R. unfold hilbert_encode in R. eapply head_bind; [apply dims_emits; assumption| |exact R]. cbv beta. apply tidy_bind; [apply tidy_lift|intros l].
    destruct m as [d|]; [|apply tidy_dict]. destruct (feq d (f64_of_N 0)); apply tidy_rle; intros c; apply (tidy_ser _ _ (TRgb TU8)).
  - apply some_inj in R. exact (hufman_head _ _ _ _ Hw Hh R).
Qed.
(** ** and every decoder makes an image of the dimensions of the original. *)
Theorem same_dimensions E E' c im data y : img_ok im -> env_ok E im -> (if any_is_lossless c then True else pixels im < 2 ^ 32 /\ ord_ok (e_ord2 E))%N ->
  (c = Zip ZBack -> 11 * pixels im + 8 < 2 ^ 64)%N -> (c = Zip ZDict -> 2 <= e_stack E')%nat ->
  any_encode E c im = Some (Ok data) -> any_decode E' c data = Some (Ok y) -> im_w y = im_w im /\ im_h y = im_h im.
Proof.
  intros Hi He Hl H64 Hst R1 R2. assert (Y : yields list_next data data []) by (rewrite <- (app_nil_r data) at 1; apply yields_list).
  pose proof (encoded_bytes E c im data Hi He Hl R1) as U.
  destruct (is_zip c) eqn:Hz.
  - destruct c as [n|n| |m| |k]; try discriminate Hz. cbn [any_encode any_decode] in *. apply some_inj in R1. apply some_inj in R2.
    destruct He as [_ _ _ _ Hc _ Hf].
    assert (Zi : (length (zip_input im) < e_fuel E)%nat) by (pose proof (zip_input_len im Hi); unfold pixels in *; lia).
    destruct k.
    + destruct (zip_dict_lossless (e_profile E) (e_caps E) im (e_fuel E) (e_stack E') Hi Zi (Hst eq_refl)) as (out & A & B). rewrite R1 in A. apply ok_inj in A. subst out.
      rewrite (B _ _ _ _ (e_profile E') Y) in R2. apply ok_inj in R2. subst y. split; reflexivity.
    + pose proof (zip_back_lossless _ _ im _ _ Hi (H64 eq_refl) Hc Zi R1 _ _ _ _ (e_profile E') (e_stack E') Y) as B. rewrite B in R2. apply ok_inj in R2. subst y. split; reflexivity.
  - destruct (header_first E c im data Hi Hz R1) as [r1 D1]. destruct (decoded_is_image E' c data y U R2) as (Iy & _ & D). destruct (D Hz) as [r2 D2].
    destruct Hi as (Hw & Hh & _). unfold dims in D1. rewrite <- app_assoc in D1. destruct (dims_inj (im_w im) (im_h im) y r2 r1 data Hw Hh D1 Iy D2) as (A & B & _). now split.
Qed.
