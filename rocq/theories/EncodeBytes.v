(** * What the encoders write are bytes. *)
From Verif Require Import Base Ser SerSpec SerProofs Bit Utils UtilsProofs Huf HufSpec HufProofs HufTop
  Dict DictSpec DictEnc Back BackSpec BackProofs BackEnc BackDec Img Float HilbertC CodecSpec CodecBytes CodecZip CodecHilbert CodecTop CodecFinal Kmeans KmeansSpec KmeansProofs KmeansEnd ClusterC ClusterSpec ClusterProofs ClusterColors VoronoiProofs Select Bench BenchSpec.
From Coq Require Import ZifyBool ZifyNat ZifyN.

(** Writes bytes only *)
Definition byteful {A} (m : io A) : Prop := forall w, Forall u8_ok (written w) -> Forall u8_ok (written (snd (m w))).
Lemma byteful_res {A} (r : res A) : byteful (fun w => (r, w)).
Proof. intros w H. exact H. Qed.
Lemma byteful_write bs : Forall u8_ok bs -> byteful (write_all bs).
Proof.
  intros Hb w H. unfold write_all. destruct (room w) as [k|]; [destruct (_ <=? _)|]; cbn [snd written]; apply Forall_app; split; auto.
  apply Forall_forall. intros x Hx. apply (proj1 (Forall_forall _ _) Hb). rewrite <- (firstn_skipn k bs). apply in_or_app. now left.
Qed.
Lemma byteful_bind {A B} (m : io A) (f : A -> io B) : byteful m -> (forall a, byteful (f a)) -> byteful (io_bind m f).
Proof. intros Hm Hf w H. specialize (Hm w H). unfold io_bind. destruct (m w) as [[a| |] w']; cbn [snd] in *; auto. now apply Hf. Qed.
Lemma byteful_iter {A} (f : A -> io unit) l : Forall (fun a => byteful (f a)) l -> byteful (io_iter f l).
Proof. induction 1; cbn [io_iter]; [apply byteful_res|now apply byteful_bind]. Qed.
Lemma byteful_u16 n : byteful (ser_u16 n).
Proof. apply byteful_write, le_bytes_u8. Qed.
Lemma byteful_ser t : forall v, wf t v -> byteful (ser t v).
Proof.
  induction t as [| | | | | | |a IHa b IHb|a IHa|n a IHa|a IHa]; intros v H; cbn [wf] in H; cbn [ser]; try (apply byteful_write, le_bytes_u8).
  - apply byteful_write. now constructor.
  - unfold ser_char. destruct (N.leb_spec v 255); [|apply byteful_res]. apply byteful_write. constructor; [unfold u8_ok; lia|constructor].
  - apply byteful_bind; [apply IHa, H|]. intros _. apply IHb, H.
  - apply byteful_bind; [apply byteful_write, le_bytes_u8|]. intros _. apply byteful_iter. destruct H as [_ H]. eapply Forall_impl; [|exact H]. exact IHa.
  - apply byteful_iter. destruct H as [_ H]. eapply Forall_impl; [|exact H]. exact IHa.
  - destruct v as [[r g] b]. destruct H as (H1 & H2 & H3). apply byteful_bind; [apply byteful_write, le_bytes_u8|]. intros _. apply byteful_iter. repeat constructor; now apply IHa.
Qed.
Lemma byteful_trie {A} (sa : A -> io unit) t : Forall (fun a => byteful (sa a)) (leaves t) -> byteful (ser_trie sa t).
Proof.
  induction t as [v|l IHl r IHr]; cbn [leaves ser_trie]; intros H.
  - inversion H; subst. apply byteful_bind; [apply byteful_write; repeat constructor|auto].
  - apply Forall_app in H as [H1 H2]. apply byteful_bind; [apply byteful_write; repeat constructor|]. intros _. apply byteful_bind; auto.
Qed.
Lemma byteful_dict {T} (next : nextf T N) fuel s : byteful (zip_dict_encode next fuel s).
Proof.
  unfold zip_dict_encode. destruct (dict_enc_new s) as [z| |]; try apply byteful_res. generalize fuel at 2 as n. intros n. revert z.
  induction n as [|n IH]; intros z; cbn [dict_encode_loop]; [apply byteful_res|]. destruct (next_pair next fuel z) as [[[[a b]|] z']| |]; try apply byteful_res.
  apply byteful_bind; [apply byteful_u16|]. intros _. apply byteful_bind; [apply byteful_u16|]. intros _. apply IH.
Qed.
Lemma byteful_run {A} (m : io A) out : byteful m -> run_vec m = Ok out -> Forall u8_ok out.
Proof.
  intros H E. specialize (H vec_writer (Forall_nil _)). unfold run_vec in E. destruct (m vec_writer) as [[a| |] w]; try discriminate. cbn [snd] in H. injection E as <-. exact H.
Qed.

(** Huffman *)
Lemma huf_u8 t (eqb : val t -> val t -> bool) ord H items tree pay lastb hdr : enc_run eqb (wf t) (format t) (ser t) ord H items tree pay lastb ->
  trie_format (format t) tree = Some hdr -> Forall u8_ok (hdr ++ pay ++ lastb).
Proof.
  intros R Eh. apply Forall_app. split; [|exact (er_u8 R)].
  assert (B : byteful (ser_trie (ser t) tree)) by (apply byteful_trie; eapply Forall_impl; [|exact (er_P R)]; apply byteful_ser).
  apply (byteful_run _ _ B). exact (emits_run_vec (so_ok (ser_trie_ok (ser_ty_ok t)) tree (er_P R) Eh)).
Qed.
Lemma dims_u8 im : img_ok im -> Forall u8_ok (dims im).
Proof. intros (Hw & Hh & _). apply Forall_app. split; now apply le32_u8. Qed.
Lemma hufman_u8 ord H im out : img_ok im -> ord_ok ord -> heap_ok suffix_cmp H -> run_vec (hufman_encode ord H im) = Ok out -> Forall u8_ok out.
Proof.
  intros Hi Ho HH E. pose proof Hi as (Hw & Hh & _).
  destruct (im_px im) as [|p l] eqn:Ep; [rewrite (hufman_empty ord H im Ep Hw Hh Ho HH) in E; discriminate|].
  assert (Hne : map to_rgb (im_px im) <> []) by (rewrite Ep; discriminate).
  assert (HE : Forall (encodable (TRgb TU8)) (map to_rgb (im_px im))).
  { apply Forall_forall. intros c Hx. split; [|exists (pixel_bytes c); apply pixel_format].
    apply rgb_wf. exact (proj1 (Forall_forall _ _) (img_rgb _ Hi) c Hx). }
  destruct (@run_of_encodable (TRgb TU8) rgb_eqb rgb_eqb_ok ord Ho H HH _ Hne HE) as (tr & pay & lb & hdr & R & Eh).
  rewrite (hufman_out ord H im tr pay lb hdr Hi R Eh) in E. apply ok_inj in E. subst out.
  apply Forall_app. split; [now apply dims_u8|exact (huf_u8 _ _ _ _ _ _ _ _ _ R Eh)].
Qed.
Lemma delta_u8 p scan ord H im out : img_ok im -> Forall (inside (im_w im) (im_h im)) (scan (im_w im) (im_h im)) -> ord_ok ord -> heap_ok suffix_cmp H ->
  run_vec (delta_encode p scan ord H im) = Ok out -> Forall u8_ok out.
Proof.
  intros Hi Hs Ho HH E. pose proof Hi as (Hw & Hh & _). set (ps := scan (im_w im) (im_h im)) in *.
  destruct (list_eq_dec (fun a b : N * N => ltac:(decide equality; apply N.eq_dec)) ps []) as [E0|Hne]; [rewrite (delta_empty p scan ord H im Hi E0 Ho HH) in E; discriminate|].
  pose proof (colours_ok im ps Hi) as Hcs. set (l := colours im ps) in *.
  assert (Lc : length l = length ps) by apply map_length.
  pose proof (diffs_ok l Hcs black black_ok) as Hd. set (ds := diffs black l) in *.
  assert (Ld : length ds = length l) by apply diffs_length.
  assert (Hnd : ds <> []) by (destruct ds; [destruct ps; [contradiction|cbn in *; lia]|discriminate]).
  assert (HE : Forall (encodable sc_ty) ds) by (eapply Forall_impl; [|exact Hd]; apply diff_encodable).
  destruct (@run_of_encodable sc_ty sc_eqb sc_eqb_ok ord Ho H HH _ Hnd HE) as (tr & pay & lb & hdr & R & Eh).
  assert (E2 : run_vec (delta_encode p scan ord H im) = Ok (dims im ++ hdr ++ pay ++ lb)).
  { unfold run_vec, delta_encode, io_bind. rewrite (dims_emits _ _ Hw Hh).
    unfold put, io_bind, write_all, vec_writer, io_lift. cbn [room written flush_fails].
    rewrite (linearize_ok _ _ Hi Hs), map_map. fold ps. fold (colours im ps). fold l.
    change START with (signed_of black). rewrite (diff_stream_ok p l Hcs black black_ok). fold ds.
    rewrite (er_ok R Eh). now apply vec_append. }
  rewrite E in E2. apply ok_inj in E2. subst out. apply Forall_app. split; [now apply dims_u8|exact (huf_u8 _ _ _ _ _ _ _ _ _ R Eh)].
Qed.

(** Look-back *)
Lemma literal_u8 l : Forall u8_ok l -> Forall (fun s => match s with Explicit d => Forall u8_ok d | _ => True end) (literal l).
Proof. destruct l; cbn [literal]; intros H; constructor; [exact H|constructor]. Qed.
Lemma parses_u8 R h lits rest syms : parses R h lits rest syms -> Forall u8_ok lits -> Forall u8_ok rest ->
  Forall (fun s => match s with Explicit d => Forall u8_ok d | _ => True end) syms.
Proof.
  assert (G : forall n (l : list N), Forall u8_ok l -> Forall u8_ok (firstn n l) /\ Forall u8_ok (skipn n l)) by (intros n l H; rewrite <- (firstn_skipn n l) in H; now apply Forall_app in H).
  induction 1 as [h lits rest len back syms _ _ IH|h lits rest syms _ _ _ IH|h lits rest _ _]; intros Hl Hr.
  - apply Forall_app. split; [now apply literal_u8|]. constructor; [exact I|]. apply IH; [constructor|now apply G].
  - apply IH; [apply Forall_app; split; [exact Hl|]|]; now apply G.
  - apply literal_u8, Forall_app. now split.
Qed.
Lemma back_u8 T (next : nextf T N) s l pr caps fuel out : delivers next s l -> Forall u8_ok l -> caps_ok caps -> (length l < fuel)%nat ->
  run_vec (zip_back_encode next pr caps fuel s) = Ok out -> Forall u8_ok out.
Proof.
  intros Hd Hl Hc Hf E. destruct (back_ok_inv _ next s l pr caps fuel out Hd Hc Hf E) as (syms & P & F & ->).
  pose proof (parses_u8 _ _ _ _ _ P (Forall_nil _) Hl) as U. assert (Nr : Forall BackEnc.near syms) by (eapply parses_near; cycle -1; [exact P|..]; unfold MAX_RING_BUFFER_SIZE; lia).
  clear - F U Nr. induction syms as [|s syms IH]; [constructor|]. inversion F; inversion U; inversion Nr; subst. cbn [map concat]. apply Forall_app. split; [|now apply IH].
  destruct s as [d|len back]; cbn [symbol_bytes symbol_len BackEnc.near] in *; apply Forall_app; split; try apply le16_u8; try assumption; unfold u16_ok; lia.
Qed.

(** Run lengths *)
Lemma runs_u8 runs : Forall run_ok runs -> Forall u8_ok (runs_bytes runs).
Proof.
  induction 1 as [|[n c] runs [Hn Hc] _ IH]; [constructor|]. unfold runs_bytes. cbn [fst snd] in *. cbn [map concat]. apply Forall_app. split; [|exact IH].
  change (run_bytes (n, c)) with (n :: pixel_bytes c). constructor; [unfold u8_ok; lia|now apply pixel_u8].
Qed.

(** Clusters *)
Lemma cluster_u8 p O ord ord2 H n im m out : ord_ok ord -> ord_ok ord2 -> heap_ok suffix_cmp H -> img_ok im -> (im_w im * im_h im < 2 ^ 32)%N ->
  cluster_colors_encode p O ord ord2 H n im = Some m -> run_vec m = Ok out -> Forall u8_ok out.
Proof.
  intros Ho Ho2 Hh Hi Hs He Hr. unfold cluster_colors_encode, with_clusters in He.
  destruct (cluster _ _ _ _ _ _ _ _) as [[[c j]| |]|] eqn:E; [| | |discriminate]; injection He as <-; [|discriminate..].
  pose proof (reduced_ok _ _ _ _ _ _ _ _ _ _ _ Ho Hi Hs E) as [R1 R2].
  rewrite (recolor_ok _ _ _ _ _ _ _ _ _ _ _ Ho Hi Hs E) in Hr.
  change (run_vec (hufman_encode ord2 H (reduced im c)) = Ok out) in Hr. exact (hufman_u8 ord2 H _ _ R1 Ho2 Hh Hr).
Qed.
Lemma voronoi_u8 p O n im m out : img_ok im -> (im_w im * im_h im < 2 ^ 32)%N -> voronoi_encode p O n im = Some m -> run_vec m = Ok out -> Forall u8_ok out.
Proof.
  intros Hi Hs He Hr. destruct (voronoi_emits p O n im m Hi ltac:(lia) He) as [[E|E]|(cs & parts & E & Hn & U & _ & Hc & _)].
  1, 2: rewrite (emits_run_vec E) in Hr; discriminate.
  rewrite (emits_run_vec E) in Hr. apply ok_inj in Hr. subst out. unfold voronoi_bytes. pose proof Hi as (Hw & Hh & _).
  apply Forall_app. split; [now apply dims_u8|]. apply Forall_app. split.
  - rewrite <- le64_eq by (rewrite Hn; exact U). apply le_bytes_u8.
  - clear E Hn. induction Hc as [|c cs (H1 & H2 & H3) _ IH]; [constructor|]. cbn [map concat]. apply Forall_app. split; [|exact IH]. unfold u32_ok in *.
    unfold color_pos_bytes. apply Forall_app. split; [apply le32_u8; unfold u32_ok; lia|]. apply Forall_app. split; [apply le32_u8; unfold u32_ok; lia|now apply pixel_u8].
Qed.

(** All codecs *)
Lemma byteful_zip_dict pr caps fuel im : byteful (zip_encode pr caps fuel ZDict im).
Proof. unfold zip_encode. apply byteful_dict. Qed.
Lemma some_inj {A} (a b : A) : Some a = Some b -> a = b.
Proof. intros H. now injection H. Qed.
Theorem encoded_bytes E c im data : img_ok im -> env_ok E im -> (if any_is_lossless c then True else pixels im < 2 ^ 32 /\ ord_ok (e_ord2 E))%N ->
  any_encode E c im = Some (Ok data) -> Forall u8_ok data.
Proof.
  intros Hi [O1 O2 O3 O4 O5 O6 O7] Hl Henc. unfold pixels in *.
  assert (Zi : (length (zip_input im) < e_fuel E)%nat) by (pose proof (zip_input_len im Hi); lia).
  destruct c as [n|n| |[d|]| |[|]]; cbn [any_encode any_is_lossless] in *.
  - destruct (cluster_colors_encode _ _ _ _ _ _ _) as [m|] eqn:Em; [|discriminate]. cbn [option_map] in Henc. injection Henc as Henc. destruct Hl.
    eapply cluster_u8; [exact O1| |exact O3|exact Hi| |exact Em|exact Henc]; assumption.
  - destruct (voronoi_encode _ _ _ _) as [m|] eqn:Em; [|discriminate]. cbn [option_map] in Henc. injection Henc as Henc. destruct Hl. eapply voronoi_u8; eassumption.
  - injection Henc as Henc. eapply delta_u8; [exact Hi| |exact O2|exact O4|exact Henc]. now apply visits_inside.
  - injection Henc as Henc. destruct (hilbert_rle_runs (e_scan E) im (e_fuel E) d Hi O6) as (runs & R & Hr & _); [lia|]. rewrite Henc in R. apply ok_inj in R. subst data.
    apply Forall_app. split; [now apply dims_u8|now apply runs_u8].
  - injection Henc as Henc. revert Henc. apply byteful_run. unfold hilbert_encode. pose proof Hi as (Hw & Hh & _).
    apply byteful_bind; [apply byteful_ser; split; assumption|]. intros _. apply byteful_bind; [apply byteful_res|]. intros l. apply byteful_dict.
  - injection Henc as Henc. eapply hufman_u8; eassumption.
  - apply some_inj in Henc. exact (byteful_run _ _ (byteful_zip_dict _ _ _ _) Henc).
  - apply some_inj in Henc. exact (back_u8 _ zip_bytes_next (zip_bytes im) _ _ _ _ _ (zip_bytes_deliver im Hi) (zip_input_u8 im Hi) O5 Zi Henc).
Qed.
