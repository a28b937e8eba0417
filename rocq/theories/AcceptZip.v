(** * The data that the image decoders accept: hilbert(zip); the depth of trees. *)
From Coq Require Import ZifyBool ZifyNat ZifyN.
From Verif Require Import Base Ser SerSpec SerProofs Bit BitSpec BitProofs Utils Huf HufSpec HufProofs Dict DictSpec DictProofs DictEnc Back BackSpec Img Float HilbertC
  CodecSpec CodecBytes CodecTop CodecFinal CodecZip CodecHilbert Kmeans ClusterC ClusterSpec VoronoiProofs Prs Select Bench ForeignSpec ForeignKeeps ForeignTop ForeignZip AcceptSpec AcceptProofs AcceptPaint AcceptStreams.

Lemma le64_of bs : u8s bs -> (8 <= length bs)%nat -> exists n q, u64_ok n /\ bs = le64 n ++ q /\ deser TUsize _ list_next bs = (Ok n, q).
Proof.
  intros HF HL. destruct (deser TUsize _ list_next bs) as [[n| |] s] eqn:E.
  - destruct (do_canon (deser_ty_ok TUsize) (list_byte_source HF) E) as [Hn [b [Hf Hy]]]. injection Hf as <-. apply yields_list_inv in Hy. exists n, s. auto.
  - exfalso. destruct bs as [|a [|b [|c [|d [|e [|f [|g [|i bs]]]]]]]]; cbn in HL; try lia. cbn in E. discriminate E.
  - exfalso. apply (never_panics TUsize (list_byte_source HF)). now rewrite E.
Qed.
Lemma cut_vector_dec bs : u8s bs -> cut_vector bs \/ exists n q, u64_ok n /\ bs = le64 n ++ q /\ (n <= N.of_nat (length q))%N.
Proof.
  intros HF. destruct (Nat.lt_ge_cases (length bs) 8) as [H|H]; [left; now left|]. destruct (le64_of bs HF H) as (n & q & Hn & E & _).
  destruct (N.lt_ge_cases (N.of_nat (length q)) n) as [L|L]; [left; right; eauto|right; eauto 10].
Qed.
Lemma cut_no_pixel bs : cut_vector bs -> no_pixel bs.
Proof.
  intros H [[x y] z] rest Hc ->. destruct H as [H|(n & q & Hn & E & HL)]; [cbn in H; lia|].
  change (pixel_bytes (x, y, z)) with (le64 3 ++ [x; y; z]) in E. rewrite <- app_assoc in E.
  assert (U : forall n r0, u64_ok n -> deser TUsize _ list_next (le64 n ++ r0) = (Ok n, r0)) by (intros m r0 Hm; apply (usize_deser m Hm _ list_next _ r0); apply yields_list).
  pose proof (U 3%N ([x; y; z] ++ rest) ltac:(reflexivity)) as U1. rewrite E, (U n q Hn) in U1. pose proof (f_equal fst U1) as U2. apply ok_inj in U2. apply (f_equal snd) in U1. cbn [snd] in U1. subst n q.
  cbn [app length] in HL. lia.
Qed.
Lemma not_cut n q : u64_ok n -> (n <= N.of_nat (length q))%N -> ~ cut_vector (le64 n ++ q).
Proof.
  intros Hn HL [H|(m & r & Hm & E & H)]; [rewrite app_length in H; cbn in H; lia|].
  assert (U : forall n r0, u64_ok n -> deser TUsize _ list_next (le64 n ++ r0) = (Ok n, r0)) by (intros k r0 Hk; apply (usize_deser k Hk _ list_next _ r0); apply yields_list).
  pose proof (U n q Hn) as U1. rewrite E, (U m r Hm) in U1. pose proof (f_equal fst U1) as U2. apply ok_inj in U2. apply (f_equal snd) in U1. cbn [snd] in U1. subst m r. lia.
Qed.
Lemma times_panic {S} (next : nextf S N) k : forall s q acc, stops next s q Panic -> (length q < k)%nat -> fst (rd_times (deser_u8 S next) k acc s) = Panic.
Proof.
  induction k as [|k IH]; intros s q acc (s1 & s2 & Hy & Hn) HL; [lia|]. cbn [rd_times]. unfold rd_bind, deser_u8 at 1. destruct q as [|x q].
  - inversion Hy; subst. now rewrite Hn.
  - apply yields_cons_inv in Hy as (s3 & E & Hy). rewrite E. apply (IH s3 q); [exists s1, s2; auto|cbn in HL; lia].
Qed.
Section Stream.
  Context {T : Type} (next : nextf T N).
  Lemma pixel_abort bs s : cut_vector bs -> stops next s bs Panic -> fst (deser (TRgb TU8) T next s) = Panic.
  Proof.
    intros H Hs. cbn [deser]. unfold deser_rgb, deser_vec, rd_bind. destruct H as [H|(n & q & Hn & -> & HL)].
    - assert (E : fst (deser_usize T next s) = Panic) by exact (le_panic 8 _ next s [] bs Hs H).
      destruct (deser_usize T next s) as [v s1]. cbn in E. now subst v.
    - destruct Hs as (s1 & s2 & Hy & He). apply yields_app_inv in Hy as (s3 & Y1 & Y2). pose proof (usize_deser n Hn _ next _ _ Y1) as E. cbn [deser] in E. rewrite E.
      rewrite rd_repeat_times. pose proof (times_panic next (N.to_nat n) s3 q [] ltac:(exists s1, s2; auto) ltac:(lia)) as P.
      change (val TU8) with N. destruct (rd_times (deser_u8 T next) (N.to_nat n) [] s3) as [v s4]. cbn in P. now subst v.
  Qed.
  (** A vector that is there but is no pixel *)
  Lemma pixel_wrong n q s s' : u64_ok n -> Forall u8_ok q -> (n <= N.of_nat (length q))%N -> no_pixel (le64 n ++ q) -> yields next s (le64 n ++ q) s' ->
    exists s'', deser (TRgb TU8) T next s = (Err, s'').
  Proof.
    intros Hn HF HL NP Hy. cbn [deser]. unfold deser_rgb. set (v := firstn (N.to_nat n) q).
    assert (Lv : N.of_nat (length v) = n) by (unfold v; rewrite firstn_length; lia).
    assert (Fv : Forall u8_ok v) by (unfold v; now apply Forall_firstn).
    assert (Ev : exists s2, deser_vec deser_u8 T next s = (Ok v, s2)).
    { assert (W : wf (TVec TU8) v) by (split; [rewrite Lv; exact Hn|exact Fv]).
      assert (F : format (TVec TU8) v = Some (le64 n ++ v)).
      { cbn [format]. rewrite Lv. assert (G : forall l : list N, concat_opt (map (fun n0 : N => Some [n0]) l) = Some l).
        { induction l as [|x l IH]; [reflexivity|]. cbn [map concat_opt]. rewrite IH. reflexivity. }
        change (val TU8) with N. rewrite (G v). apply app_opt_eq. }
      assert (Q : q = v ++ skipn (N.to_nat n) q) by (unfold v; now rewrite firstn_skipn). rewrite Q, app_assoc in Hy.
      apply yields_app_inv in Hy as (s2 & Y1 & _). exists s2. exact (do_rt (deser_ty_ok (TVec TU8)) v W F Y1). }
    destruct Ev as (s2 & Ev). change (val TU8) with N. unfold rd_bind. rewrite Ev. assert (Q : q = v ++ skipn (N.to_nat n) q) by (unfold v; now rewrite firstn_skipn). clearbody v. destruct v as [|x [|y [|z [|u v']]]] eqn:V; try (eexists; reflexivity). exfalso.
    apply (NP (x, y, z) (skipn (N.to_nat n) q)).
    - apply Forall_cons_iff in Fv as [F1 Fv]. apply Forall_cons_iff in Fv as [F2 Fv]. apply Forall_inv in Fv. now split.
    - change (pixel_bytes (x, y, z)) with (le64 3 ++ [x; y; z]). cbn [length] in Lv. rewrite <- Lv at 1. rewrite <- app_assoc. f_equal. exact Q.
  Qed.
  Lemma pixel_text_stops bs e cs e' : pixel_text bs e cs e' -> u8s bs -> forall s st, yields next s bs st -> fst (next st) = end_res e ->
    Forall rgb_ok cs /\ stops (deser_stream (deser (TRgb TU8)) next) s cs (end_res e').
  Proof.
    unfold deser_stream. induction 1 as [c bs e cs e' Hc H IH|bs e NP NC|bs C]; intros HF s st Hy He.
    - apply Forall_app in HF as [_ HF]. apply yields_app_inv in Hy as (s1 & Y1 & Y2). destruct (IH HF s1 st Y2 He) as [H1 (s2 & s3 & Y3 & E3)].
      split; [now constructor|]. exists s2, s3. split; [|exact E3]. econstructor; [exact (pixel_deser c Hc _ next _ _ Y1)|exact Y3].
    - split; [constructor|]. assert (G : exists s', deser (TRgb TU8) T next s = (Err, s')).
      { destruct (cut_vector_dec bs HF) as [C|(n & q & Hn & -> & HL)].
        - destruct e; [|now destruct NC]. pose proof (sim_deser next st (fun A => @Err A) (or_introl (fun A => eq_refl)) He (TRgb TU8) s bs Hy) as D.
          destruct (pixel_cases bs HF) as [(c & rest & Hc & -> & _)|[_ [s' E]]]; [now destruct (NP c rest Hc)|]. rewrite E in D.
          destruct (deser (TRgb TU8) T next s) as [r s2]. exists s2. cbn in D. destruct D; subst; reflexivity.
        - apply (pixel_wrong n q s st Hn); auto. now apply Forall_app in HF. }
      destruct G as [s' G]. exists s, s'. split; [constructor|exact G].
    - split; [constructor|]. cbn [end_res]. destruct (next st) as [r st2] eqn:En. cbn in He. subst r.
      pose proof (pixel_abort bs s C ltac:(exists st, st2; auto)) as P. destruct (deser (TRgb TU8) T next s) as [r s2] eqn:E. cbn in P. subst r. exists s, s2. split; [constructor|exact E].
  Qed.
End Stream.
Lemma pixel_text_total k e : forall bs, (length bs <= k)%nat -> u8s bs -> exists cs e', pixel_text bs e cs e'.
Proof.
  assert (St : forall bs, u8s bs -> no_pixel bs -> exists cs e', pixel_text bs e cs e').
  { intros bs HF NP. destruct (cut_vector_dec bs HF) as [C|(n & q & Hn & -> & HL)].
    - destruct e; [exists [], Finished; constructor; [exact NP|now intros [_ ?]]|exists [], Aborted; now constructor].
    - exists [], Finished. constructor; [exact NP|]. intros [C _]. now apply (not_cut n q Hn HL) in C. }
  induction k as [|k IH]; intros bs HL HF.
  - apply St; [exact HF|]. intros c rest _ ->. rewrite app_length in HL. destruct c as [[c1 c2] c3]. cbn in HL. lia.
  - destruct (pixel_cases bs HF) as [(c & rest & Hc & -> & Hr & _)|[NP _]]; [|now apply St].
    destruct (IH rest) as (cs & e' & G); [rewrite app_length in HL; destruct c as [[c1 c2] c3]; cbn in HL; lia|exact Hr|]. exists (c :: cs), e'. now constructor.
Qed.
Theorem hilbert_zip_accepts : forall scan stack data, Forall u8_ok data -> (length data < 4 * stack)%nat -> (forall w h, visits_all w h (scan w h)) ->
  (hilbert_decode scan (S stack) MZip list_next data = Err <-> (length data < 8)%nat)
  /\ forall im, hilbert_decode scan (S stack) MZip list_next data = Ok im <-> hilbert_zip_file scan im data.
Proof.
  intros scan stack data HF HS HV. unfold hilbert_decode.
  destruct (create_cases data HF) as [[H1 (s & _ & ->)]|[[H1 (w & h & s & _ & -> & HB)]|(w & h & body & HB & Hd & Hb & Hn & -> & HBN & _)]].
  - split; [tauto|]. intros im. split; [discriminate|]. intros (Hi & _ & b & out & e & cs & e' & E & _). apply file_large in E; [lia|exact Hi].
  - unfold decode_any. rewrite HB. cbn [res_bind]. split; [split; [discriminate|]; intros H; now apply short_not_large in H1|].
    intros im. split; [discriminate|]. intros (Hi & _ & b & out & e & cs & e' & E & _). apply file_large in E; [tauto|exact Hi].
  - unfold decode_any. rewrite HBN. cbn [res_bind]. fold (blank w h). change (val (TRgb TU8)) with (rgb N).
    assert (Long : ~ (length data < 8)%nat) by (rewrite Hd, !app_length; cbn; lia).
    assert (HS' : (length body < 4 * stack)%nat) by (rewrite Hd, !app_length in HS; lia).
    destruct (dict_foreign _ list_next body body (list_all body)) as (out & e & Hx & U & D). destruct (D stack HS') as (st & Y & He).
    assert (HO : u8s out) by exact (keeps_yields _ _ _ (keeps_dict u8s list_next keeps_list (S stack)) _ _ _ (dict_kept_new u8s _ Hb) Y).
    assert (P : forall cs e', pixel_text out e cs e' -> drawn w h (scan w h) cs e' (res_bind (paint (deser_stream (deser (TRgb TU8)) (dd_next list_next (S stack))) w h (scan w h) (zip_dict_decode body) (blank w h)) (fun buf => Ok (from_rgb w h buf)))).
    { intros cs e' G. destruct (pixel_text_stops (dd_next list_next (S stack)) _ _ _ _ G HO (zip_dict_decode body) st Y) as [G1 G2]; [rewrite He; destruct e; reflexivity|].
      exact (paint_any _ w h (scan w h) (zip_dict_decode body) cs e' HB (HV w h) G1 (or_introl G2)). }
    destruct (pixel_text_total _ e out (le_n _) HO) as (cs & e' & G). split.
    + split; [|contradiction]. intros H. now apply (proj1 (P cs e' G)) in H.
    + intros im. split.
      * intros H. apply (proj2 (P cs e' G)) in H as (Hi & Ho & Ew & Eh & H1 & H2).
        split; [exact Hi|]. split; [exact Ho|]. exists body, out, e, cs, e'. split; [now apply (dims_from w h)|]. rewrite Ew, Eh. auto.
      * intros (Hi & Ho & b & out' & e1 & cs' & e1' & E & Hx' & G' & H1 & H2). destruct HB as (Hw & Hh & H3). destruct (dims_inj w h im b body data Hw Hh Hd Hi E) as (Ew & Eh & ->).
        destruct (U _ _ Hx') as [-> ->]. apply (proj2 (P cs' e1' G')). rewrite Ew, Eh in *. auto 10.
Qed.

(** ** The depth of the recursion *)
Lemma deser_trie_deep {A} (da : deserializer A) n : forall data, deser_trie da n list_next (repeat 1%N n ++ data) = None.
Proof. induction n as [|n IH]; intros data; [reflexivity|]. cbn [repeat app deser_trie]. unfold deser_u8, list_next at 1. now rewrite IH. Qed.
Theorem recursion_depth : forall n w h rest, buffer_fits w h ->
  hufman_decode n list_next (le32 w ++ le32 h ++ repeat 1%N n ++ rest) = None
  /\ forall p scan, delta_decode p scan n list_next (le32 w ++ le32 h ++ repeat 1%N n ++ rest) = None.
Proof.
  intros n w h rest (Hw & Hh & H3).
  assert (G : create_image_buffer_standard list_next (le32 w ++ le32 h ++ repeat 1%N n ++ rest) = (Ok (w, h, blank w h), repeat 1%N n ++ rest)).
  { unfold create_image_buffer_standard, rd_bind.
    rewrite (dims_deser w h Hw Hh _ list_next (le32 w ++ le32 h ++ repeat 1%N n ++ rest) (repeat 1%N n ++ rest)) by (rewrite app_assoc; apply yields_list).
    cbn [fst snd]. unfold rd_lift, buffer_new. apply N.ltb_lt in H3. rewrite H3. reflexivity. }
  split; [|intros p scan].
  - unfold hufman_decode. rewrite G. unfold huf_decode_all. now rewrite deser_trie_deep.
  - unfold delta_decode. rewrite G. unfold huf_decode_all. now rewrite deser_trie_deep.
Qed.
