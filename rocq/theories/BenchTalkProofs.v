(** * Proofs about what is printed for one image of the benchmark (C94) *)
From Verif Require Import Base Prs Img Float Select Bench BenchSpec CodecSpec Special BenchDisk HilbertC HilbertSays BenchSays Writers WriterProofs CodecSays CodecSaysSpec CodecSaysProofs BenchTalk BenchTalkSpec.


Lemma ours_app a b : ours (a ++ b) = ours a ++ ours b.
Proof. apply flat_map_app. Qed.
Lemma ours_codecs o : ours (map Codecs o) = [].
Proof. induction o; [reflexivity|exact IHo]. Qed.

Lemma ours_cons l r : ours (Ours l :: r) = l :: ours r.
Proof. reflexivity. Qed.
Ltac tidy := cbv zeta; cbn [option_map]; repeat first [rewrite ours_app | rewrite ours_cons | rewrite ours_codecs | progress cbn [app]]; reflexivity.

Lemma gathered_encode E nodes c im : img_ok im -> env_ok E im -> talk_ok E nodes c im ->
  option_map gathered (snd (encode_says E nodes c im vec_writer)) = any_encode E c im.
Proof.
  intros Hi He Ht. rewrite (encode_silent E nodes c im vec_writer Hi He Ht). rewrite any_write_run.
  destruct (any_write E c im) as [m|]; reflexivity.
Qed.

Lemma talk_erased p zero E E' nodes c path o saves :
  (forall im, o = inl im -> img_ok im /\ env_ok E im /\ talk_ok E nodes c im) ->
  let '(said, r) := measure_talk p zero E E' nodes c path o saves in
  measure_says p zero (any E E' c) path o saves = option_map (fun r => (ours said, r)) r.
Proof.
  intros H. destruct o as [im|e]; [|reflexivity]. destruct (H im eq_refl) as (Hi & He & Ht). clear H.
  unfold measure_talk, measure_says. cbn [enc dec lossless any].
  rewrite <- (gathered_encode E nodes c im Hi He Ht). destruct (encode_says E nodes c im vec_writer) as [o1 r1]. cbn [snd].
  destruct (option_map gathered r1) as [[data| |]|]; [|tidy|tidy|reflexivity].
  destruct (raw_size p im) as [raw| |]; [|tidy|tidy].
  rewrite <- (decode_silent E' c data). destruct (decode_says E' c data) as [o2 r2]. cbn [snd].
  destruct r2 as [[y| |]|]; [|tidy|tidy|reflexivity].
  destruct (compute_error p zero im y) as [err| |]; [|tidy|tidy].
  destruct (negb (feq err (f64_of_N 0))); [|tidy].
  destruct (under_output path _) as [file| |]; [|tidy|tidy].
  destruct (negb saves); [tidy|]. destruct (any_is_lossless c); tidy.
Qed.

(** An image with a record *)
Lemma talk_record p zero E E' nodes c path im saves said r : img_ok im -> env_ok E im -> talk_ok E nodes c im ->
  measure_talk p zero E E' nodes c path (inl im) saves = (said, Some (Ok r)) ->
  exists o1 size raw saved, printed c im o1
  /\ said = Ours (Processing path) :: map Codecs o1 ++ [Ours (CompressedSize size); Ours (RawSize raw)] ++ saved
  /\ (saved = [] \/ (any_is_lossless c = false /\ exists file, saved = [Ours (SavedTo file)])).
Proof.
  intros Hi He Ht H. unfold measure_talk in H.
  pose proof (encode_prints E nodes c im Hi He Ht) as HP.
  destruct (encode_says E nodes c im vec_writer) as [o1 [[[[]| |] w1]|]]; cbn [option_map gathered fst snd] in *; try discriminate H.
  specialize (HP w1 eq_refl).
  destruct (raw_size p im) as [raw| |]; try discriminate H.
  destruct (decode_lines E' c (written w1)) as [HD|[HD _]]; destruct (decode_says E' c (written w1)) as [o2 r2]; cbn [fst] in HD.
  2: { injection HD as -> ->. discriminate H. }
  subst o2. destruct r2 as [[y| |]|]; try discriminate H.
  destruct (compute_error p zero im y) as [err| |]; try discriminate H.
  exists o1, (N.of_nat (length (written w1))), raw.
  destruct (negb (feq err (f64_of_N 0))).
  - destruct (under_output path _) as [file| |]; try discriminate H. destruct (negb saves); [discriminate H|].
    destruct (any_is_lossless c) eqn:El; [discriminate H|]. injection H as <- _. exists [Ours (SavedTo file)].
    split; [exact HP|]. split; [|right; eauto]. cbn [app map]. rewrite <- !app_assoc. reflexivity.
  - injection H as <- _. exists []. split; [exact HP|]. split; [|now left]. cbn [app map]. rewrite <- !app_assoc. reflexivity.
Qed.

(** Where the lines of the codec are, whatever happens *)
Lemma talk_order p zero E E' nodes c path o saves said r : measure_talk p zero E E' nodes c path o saves = (said, r) ->
  exists a o2 b, said = Ours (Processing path) :: map Codecs (match o with inl im => fst (encode_says E nodes c im vec_writer) | inr _ => [] end)
       ++ map Ours a ++ map Codecs o2 ++ map Ours b
  /\ (o2 = [] \/ (o2 = map FromHilbert [SymbolFailed; StreamEnded] /\ b = [Failure (NoDecode path)] /\ r = Some Err)).
Proof.
  intros H. destruct o as [im|e].
  2: { injection H as <- <-. exists [Failure (NoOpen e)], [], []. split; [reflexivity|now left]. }
  unfold measure_talk in H. destruct (encode_says E nodes c im vec_writer) as [o1 r1]. cbn [fst].
  assert (HS : forall a, said = Ours (Processing path) :: map Codecs o1 ++ map Ours a -> exists a o2 b,
      said = Ours (Processing path) :: map Codecs o1 ++ map Ours a ++ map Codecs o2 ++ map Ours b
      /\ (o2 = [] \/ (o2 = map FromHilbert [SymbolFailed; StreamEnded] /\ b = [Failure (NoDecode path)] /\ r = Some Err))).
  { intros a ->. exists a, [], []. split; [|now left]. cbn [map app]. now rewrite app_nil_r. }
  destruct (option_map gathered r1) as [[data| |]|].
  2: { injection H as <- <-. now apply (HS [Failure NoEncode]). }
  2: { injection H as <- <-. apply (HS []). cbn [map]. now rewrite app_nil_r. }
  2: { injection H as <- <-. apply (HS []). cbn [map]. now rewrite app_nil_r. }
  set (size := N.of_nat (length data)) in *.
  destruct (raw_size p im) as [raw| |].
  2: { injection H as <- <-. now apply (HS [CompressedSize size]). }
  2: { injection H as <- <-. now apply (HS [CompressedSize size]). }
  destruct (decode_lines E' c data) as [HD|[HD _]]; destruct (decode_says E' c data) as [o2 r2]; cbn [fst] in HD.
  2: { injection HD as -> ->. injection H as <- <-. exists [CompressedSize size; RawSize raw], (map FromHilbert [SymbolFailed; StreamEnded]), [Failure (NoDecode path)].
       split; [|right; auto]. cbn [map app]. rewrite <- !app_assoc. reflexivity. }
  subst o2. clear HS.
  assert (HS : forall b, said = (Ours (Processing path) :: map Codecs o1) ++ [Ours (CompressedSize size)] ++ [Ours (RawSize raw)] ++ map Ours b -> exists a o2 b,
      said = Ours (Processing path) :: map Codecs o1 ++ map Ours a ++ map Codecs o2 ++ map Ours b
      /\ (o2 = [] \/ (o2 = map FromHilbert [SymbolFailed; StreamEnded] /\ b = [Failure (NoDecode path)] /\ r = Some Err))).
  { intros b ->. exists [CompressedSize size; RawSize raw], [], b. split; [reflexivity|now left]. }
  cbn [map] in H. rewrite ?app_nil_r in H.
  destruct r2 as [[y| |]|]; cbn [map] in H.
  2: { injection H as <- <-. apply (HS [Failure (NoDecode path)]). now rewrite <- !app_assoc. }
  2: { injection H as <- <-. apply (HS []). now rewrite <- !app_assoc. }
  2: { injection H as <- <-. apply (HS []). now rewrite <- !app_assoc. }
  destruct (compute_error p zero im y) as [err| |].
  2: { injection H as <- <-. apply (HS []). now rewrite <- !app_assoc. }
  2: { injection H as <- <-. apply (HS []). now rewrite <- !app_assoc. }
  destruct (negb (feq err (f64_of_N 0))).
  2: { injection H as <- <-. apply (HS []). now rewrite <- !app_assoc. }
  destruct (under_output path _) as [file| |].
  2: { injection H as <- <-. apply (HS []). now rewrite <- !app_assoc. }
  2: { injection H as <- <-. apply (HS []). now rewrite <- !app_assoc. }
  destruct (negb saves); [|destruct (any_is_lossless c)]; injection H as <- <-.
  - apply (HS [Failure NoSave]). now rewrite <- !app_assoc.
  - apply (HS [SavedTo file; Failure Mismatch]). now rewrite <- !app_assoc.
  - apply (HS [SavedTo file]). now rewrite <- !app_assoc.
Qed.
