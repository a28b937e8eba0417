(** * The zip codecs on arbitrary bytes. *)
From Coq Require Import ZifyBool ZifyNat ZifyN.
From Verif Require Import Base Ser SerSpec SerProofs Bit Utils Huf HufSpec Dict DictSpec DictEnc Back BackSpec BackDec Img Float HilbertC CodecSpec CodecBytes CodecZip CodecTop CodecFinal
  ForeignSpec BackForeign ForeignKeeps ForeignTop.

Section Sim.
  Context {T : Type} (next : nextf T N) (st : T) (r : forall A : Type, res A).
  Hypothesis Hr : (forall A, r A = Err) \/ (forall A, r A = Panic).
  Hypothesis Hst : fst (next st) = r N.
  Definition sim {A} (m : rd T A) (m' : rd (list N) A) : Prop := forall s l, yields next s l st ->
    match m' l with
    | (Ok v, l') => exists s', m s = (Ok v, s') /\ yields next s' l' st
    | (Err, _) => fst (m s) = Err \/ fst (m s) = r A
    | (Panic, _) => fst (m s) = Panic
    end.
  Lemma sim_ret {A} (a : A) : sim (rd_ret a) (rd_ret a).
  Proof. intros s l H. cbn. exists s. auto. Qed.
  Lemma sim_fail {A} : sim (@rd_fail T A) rd_fail.
  Proof. intros s l H. cbn. auto. Qed.
  Lemma sim_bind {A B} (m : rd T A) m' (f : A -> rd T B) f' : sim m m' -> (forall a, sim (f a) (f' a)) -> sim (rd_bind m f) (rd_bind m' f').
  Proof.
    intros Hm Hf s l H. specialize (Hm s l H). unfold rd_bind. destruct (m' l) as [[a| |] l1].
    - destruct Hm as (s1 & -> & H1). exact (Hf a s1 l1 H1).
    - destruct (m s) as [[a| |] s1]; cbn in *; auto.
      + destruct Hr as [E|E]; rewrite E in Hm; destruct Hm; discriminate.
      + right. destruct Hr as [E|E]; rewrite E in *; destruct Hm; congruence.
    - destruct (m s) as [[a| |] s1]; cbn in *; congruence.
  Qed.
  Lemma sim_next : sim next list_next.
  Proof.
    intros s [|x l] H; cbn.
    - inversion H; subst. auto.
    - apply yields_cons_inv in H as [s1 [H1 H2]]. eauto.
  Qed.
  Lemma sim_le k : forall acc, sim (deser_le k next acc) (deser_le k list_next acc).
  Proof. induction k as [|k IH]; intros acc; cbn [deser_le]; [apply sim_ret|]. apply sim_bind; [exact sim_next|]. intros b. apply IH. Qed.
  Lemma sim_times {A} (m : rd T A) m' k : sim m m' -> forall acc, sim (rd_times m k acc) (rd_times m' k acc).
  Proof. intros Hm. induction k as [|k IH]; intros acc; cbn [rd_times]; [apply sim_ret|]. apply sim_bind; auto. Qed.
  Lemma sim_repeat {A} (m : rd T A) m' n : sim m m' -> sim (rd_repeat m n) (rd_repeat m' n).
  Proof. intros Hm s l H. rewrite !rd_repeat_times. exact (sim_times m m' _ Hm [] s l H). Qed.
  Lemma sim_deser t : sim (deser t T next) (deser t _ list_next).
  Proof.
    induction t; cbn [deser]; try exact (sim_le _ []); try exact sim_next.
    - apply sim_bind; [exact (sim_le _ [])|]. intros; apply sim_ret.
    - apply sim_bind; [assumption|]. intros a. apply sim_bind; [assumption|]. intros b. apply sim_ret.
    - apply sim_bind; [exact (sim_le _ [])|]. intros n. now apply sim_repeat.
    - apply sim_bind; [now apply sim_repeat|]. intros l. destruct (length l =? n)%nat; [apply sim_ret|apply sim_fail].
    - apply sim_bind; [apply sim_bind; [exact (sim_le _ [])|]; intros n; now apply sim_repeat|].
      intros l. destruct l as [|x [|y [|z [|? ?]]]]; try apply sim_fail. apply sim_ret.
  Qed.
  Lemma rebuild_sim s l : yields next s l st -> match rebuild_image list_next l with
    | Ok im => rebuild_image next s = Ok im
    | Err => rebuild_image next s = Err \/ rebuild_image next s = r img
    | Panic => rebuild_image next s = Panic end.
  Proof.
    intros H. unfold rebuild_image. pose proof (sim_deser (TPair TU32 TU32) s l H) as D.
    destruct (deser (TPair TU32 TU32) _ list_next l) as [[[w h]| |] l1].
    - destruct D as (s1 & -> & H1). destruct (buffer_new w h) as [b| |]; auto.
      pose proof (sim_repeat _ _ (w * h)%N (sim_deser (TRgb TU8)) s1 l1 H1) as D.
      destruct (rd_repeat (deser (TRgb TU8) _ list_next) (w * h) l1) as [[px| |] l2].
      + destruct D as (s2 & -> & _). reflexivity.
      + destruct (rd_repeat (deser (TRgb TU8) T next) (w * h) s1) as [[px| |] s2]; cbn in D; auto.
        * destruct Hr as [E|E]; rewrite E in D; destruct D; discriminate.
        * destruct Hr as [E|E]; rewrite E in *; [destruct D; discriminate|auto].
      + destruct (rd_repeat (deser (TRgb TU8) T next) (w * h) s1) as [[px| |] s2]; cbn in D; congruence.
    - destruct (deser (TPair TU32 TU32) T next s) as [[[w h]| |] s2]; cbn in D; auto.
      + destruct Hr as [E|E]; rewrite E in D; destruct D; discriminate.
      + destruct Hr as [E|E]; rewrite E in *; [destruct D; discriminate|auto].
    - destruct (deser (TPair TU32 TU32) T next s) as [[[w h]| |] s2]; cbn in D; congruence.
  Qed.
End Sim.

Lemma rebuild_list_ok out im : u8s out -> rebuild_image list_next out = Ok im <-> img_ok im /\ is_opaque im /\ exists rest, out = zip_input im ++ rest.
Proof.
  intros HF. split.
  - intros H. destruct (rebuild_made u8s list_next out im keeps_list HF H) as [H1 H2]. split; [exact H1|]. split; [exact H2|].
    unfold rebuild_image in H. destruct (deser (TPair TU32 TU32) _ list_next out) as [[[w h]| |] s] eqn:E; try discriminate.
    apply dims_list in E as (_ & _ & Hd & Hs); [|exact HF]. destruct (buffer_new w h); try discriminate.
    rewrite rd_repeat_times in H. destruct (rd_times (deser (TRgb TU8) _ list_next) (N.to_nat (w * h)) [] s) as [[l| |] s2] eqn:R; try discriminate.
    injection H as <-. destruct (times_canon (deser_ty_ok (TRgb TU8)) _ _ (list_byte_source Hs) R) as (l' & bs & -> & _ & _ & Hc & Hy).
    rewrite pixels_format in Hc. apply (f_equal (fun o => match o with Some x => x | None => [] end)) in Hc. cbv beta iota in Hc. subst bs.
    apply yields_list_inv in Hy. exists s2. subst s out. unfold zip_input, image_bytes. cbn [from_rgb im_w im_h im_px].
    rewrite map_map. cbn [app]. rewrite <- !app_assoc. rewrite (map_map (fun c : rgb N => (c, 255%N)) (fun x : rgba => pixel_bytes (to_rgb x))). reflexivity.
  - intros (H1 & H2 & rest & ->). rewrite (rebuild_ok im H1 _ list_next _ _ (yields_list (zip_input im) rest)). f_equal. now apply opaque_id.
Qed.
Lemma rebuild_list_panic out : u8s out -> rebuild_image list_next out = Panic <-> exists w h rest, u32_ok w /\ u32_ok h /\ (2 ^ 63 <= 3 * w * h)%N /\ out = le32 w ++ le32 h ++ rest.
Proof.
  intros HF. split.
  - intros H. unfold rebuild_image in H. pose proof (header_cases out HF) as HC.
    destruct (deser (TPair TU32 TU32) _ list_next out) as [[[w h]| |] s] eqn:E; [|discriminate|easy]. destruct HC as (Hw & Hh & Hd).
    exists w, h, s. split; [exact Hw|]. split; [exact Hh|]. split; [|exact Hd].
    unfold buffer_new in H. destruct (N.ltb_spec (3 * w * h) (2 ^ 63)) as [B|B]; [|lia]. exfalso.
    apply dims_list in E as (_ & _ & _ & Hs); [|exact HF]. rewrite rd_repeat_times in H.
    pose proof (times_nopanic (deser_ty_ok (TRgb TU8)) (N.to_nat (w * h)) [] (list_byte_source Hs)) as NP.
    destruct (rd_times (deser (TRgb TU8) _ list_next) (N.to_nat (w * h)) [] s) as [[l| |] s2]; try discriminate. now apply NP.
  - intros (w & h & rest & Hw & Hh & B & ->). unfold rebuild_image.
    rewrite (dims_deser w h Hw Hh _ list_next (le32 w ++ le32 h ++ rest) rest) by (rewrite app_assoc; apply yields_list).
    unfold buffer_new. destruct (N.ltb_spec (3 * w * h) (2 ^ 63)); [lia|reflexivity].
Qed.

Lemma keeps_yields {T A} (P : A -> Prop) (I : T -> Prop) (next : nextf T A) : keeps P I next -> forall s l s', I s -> yields next s l s' -> Forall P l.
Proof. intros Hn s l s' Hs Hy. induction Hy as [|s x s1 l s2 Hx _ IH]; [constructor|]. destruct (Hn _ _ _ Hs Hx). auto. Qed.
Lemma list_all (l : list N) : yields_all list_next l l.
Proof. exists [], []. split; [|reflexivity]. rewrite <- (app_nil_r l) at 1. apply yields_list. Qed.
Lemma accepts_source {T} (next : nextf T N) s st out e : u8s out -> yields next s out st ->
  fst (next st) = match e with Finished => Err | Aborted => Panic end -> accepts out e (rebuild_image next s).
Proof.
  intros HF Hy He. set (r := fun A : Type => match e with Finished => @Err A | Aborted => Panic end).
  assert (Hr : (forall A, r A = Err) \/ (forall A, r A = Panic)) by (unfold r; destruct e; auto).
  pose proof (rebuild_sim next st r Hr He s out Hy) as S. split; [|split].
  - intros im. rewrite <- (rebuild_list_ok out im HF). destruct (rebuild_image list_next out) as [im'| |]; [now rewrite S| |now rewrite S].
    split; [|discriminate]. intros G. exfalso. destruct Hr as [E|E]; rewrite E in S; destruct S; congruence.
  - intros ->. rewrite <- (rebuild_list_panic out HF). destruct (rebuild_image list_next out) as [im'| |]; [now rewrite S| |now rewrite S].
    unfold r in S. destruct S as [-> | ->]; split; discriminate.
  - intros -> im Hi Hp. apply (rebuild_stop im out Panic Hi Hp (or_intror eq_refl)). unfold stops.
    destruct (next st) as [v s2] eqn:E. cbn in He. subst v. now exists st, s2.
Qed.
Theorem zip_back_foreign : forall T (next : nextf T N) s bs pr stack out e, yields_all next s bs -> Forall u8_ok bs -> (N.of_nat (length bs) < 2 ^ 48)%N ->
  unpacks [] bs out e -> accepts out e (zip_decode pr stack ZBack next s).
Proof.
  intros T next s bs pr stack out e Hy HF HL Hu.
  assert (HO : u8s out).
  { destruct (back_foreign pr (list_all bs) HF HL) as (out' & e' & _ & U & st & Y & _). destruct (U _ _ Hu) as [-> _].
    exact (keeps_yields _ _ _ (keeps_back u8s list_next MAX_RING_BUFFER_SIZE pr keeps_list) _ _ _ (back_kept_new u8s _ _ HF) Y). }
  destruct (back_foreign pr Hy HF HL) as (out' & e' & _ & U & st & Y & E). destruct (U _ _ Hu) as [<- <-].
  exact (accepts_source _ _ _ out e HO Y E).
Qed.
Theorem zip_dict_foreign : forall T (next : nextf T N) s bs pr stack out e, yields_all next s bs -> Forall u8_ok bs -> (length bs < 4 * stack)%nat ->
  expands initial_dict (words_of bs) out e -> accepts out e (zip_decode pr (S stack) ZDict next s).
Proof.
  intros T next s bs pr stack out e Hy HF HL Hu.
  assert (HO : u8s out).
  { destruct (dict_foreign _ _ _ _ (list_all bs)) as (out' & e' & _ & U & D). destruct (D stack HL) as (st & Y & _). destruct (U _ _ Hu) as [-> _].
    exact (keeps_yields _ _ _ (keeps_dict u8s list_next keeps_list (S stack)) _ _ _ (dict_kept_new u8s _ HF) Y). }
  destruct (dict_foreign _ _ _ _ Hy) as (out' & e' & _ & U & D). destruct (D stack HL) as (st & Y & E). destruct (U _ _ Hu) as [<- <-].
  exact (accepts_source _ _ _ out e HO Y E).
Qed.

Lemma dict_panics pr stack : zip_decode pr stack ZDict list_next [97; 0; 98; 0; 1; 1; 0; 0]%N = Panic.
Proof. destruct stack as [|[|stack]]; vm_compute; reflexivity. Qed.
Lemma back_panics pr stack : zip_decode pr stack ZBack list_next [1; 128; 1; 0]%N = Panic.
Proof. destruct pr; vm_compute; reflexivity. Qed.

From Verif Require Import Kmeans ClusterC Prs Select Bench.
Theorem every_codec_aborts : forall E c, exists data, Forall u8_ok data /\ (length data <= 8)%nat /\ any_decode E c data = Some Panic.
Proof.
  intros E c.
  assert (G : is_zip c = false -> exists data, Forall u8_ok data /\ (length data <= 8)%nat /\ any_decode E c data = Some Panic).
  { intros H. exists (le32 4294967295 ++ le32 4294967295 ++ []). split; [repeat constructor; unfold u8_ok; vm_compute; reflexivity|].
    split; [cbn; lia|]. apply huge_dims; [reflexivity|reflexivity|vm_compute; discriminate|exact H]. }
  destruct c as [n|n| |m| |[|]]; try (apply G; reflexivity).
  - exists [97; 0; 98; 0; 1; 1; 0; 0]%N. split; [repeat constructor; unfold u8_ok; vm_compute; reflexivity|]. split; [cbn; lia|]. cbn [any_decode]. now rewrite dict_panics.
  - exists [1; 128; 1; 0]%N. split; [repeat constructor; unfold u8_ok; vm_compute; reflexivity|]. split; [cbn; lia|]. cbn [any_decode]. now rewrite back_panics.
Qed.

From Verif Require Import CodecCases.
Lemma step_lit h d bs out e : (length d <= 100)%nat -> Forall u8_ok d -> d <> [] -> unpacks (h ++ d) bs out e -> unpacks h (le16 (N.of_nat (length d)) ++ d ++ bs) (d ++ out) e.
Proof.
  intros HL HF Hne Hu. rewrite app_assoc. change (le16 (N.of_nat (length d)) ++ d) with (symbol_bytes (Explicit d)).
  apply (unpacks_symbol h (Explicit d)); auto; [split; [lia|exact HF]|exact I].
Qed.
Lemma step_copy h len back bs out e t : (len <= 32767)%N -> (back <= N.min (N.of_nat (length h)) 65535)%N -> t = symbol_text h (LookBack len back) -> t <> [] ->
  unpacks (h ++ t) bs out e -> unpacks h (symbol_bytes (LookBack len back) ++ bs) (t ++ out) e.
Proof. intros HL HB -> Hne Hu. apply unpacks_symbol; auto. split; [exact HL|]. lia. Qed.
Ltac lit d := apply (step_lit _ d); [cbn; lia|repeat constructor; unfold u8_ok; lia|discriminate|].
Ltac copy len back t := apply (step_copy _ len back _ _ _ t); [lia|vm_compute; discriminate|vm_compute; reflexivity|discriminate|].
Lemma unpacks_cases :
  unpacks [] ([2; 0; 97; 98] ++ [2; 128; 2; 0] ++ [9])%N [97; 98; 97; 98]%N Finished
  /\ unpacks [] ([2; 0; 97; 98] ++ [5; 128; 1; 0] ++ [])%N [97; 98; 98]%N Finished
  /\ unpacks [] ([1; 0; 97] ++ [0; 0] ++ [1; 0; 97])%N [97]%N Finished
  /\ unpacks [] ([1; 0; 97] ++ [1; 128; 2; 0] ++ [1; 0; 97])%N [97]%N Aborted
  /\ unpacks [] ([1; 0; 97] ++ [3; 0; 97; 98])%N [97]%N Aborted.
Proof.
  split; [|split; [|split; [|split]]].
  - lit [97; 98]%N. copy 2%N 2%N [97; 98]%N. apply unpacks_end. cbn. lia.
  - lit [97; 98]%N. copy 5%N 1%N [98]%N. apply unpacks_end. cbn. lia.
  - lit [97]%N. apply (unpacks_empty _ (Explicit [])); [split; [cbn; lia|constructor]|exact I|reflexivity].
  - lit [97]%N. apply (unpacks_far _ (LookBack 1 2)); [split; lia|]. cbn [reaches]. cbn. lia.
  - lit [97]%N. apply (unpacks_cut_literal _ 3 [97; 98]%N); cbn; lia.
Qed.
Lemma foreign_rle : forall E, e_scan E 2%N 1%N = [(0, 0); (1, 0)]%N ->
  any_decode E (Hilbert (RLE (f64_of_N 0))) ([2; 0; 0; 0; 1; 0; 0; 0] ++ 3 :: [3; 0; 0; 0; 0; 0; 0; 0; 7; 8; 9])%N = Some (Ok (mkImg 2 1 [px 7 8 9 255; px 7 8 9 255]%N)).
Proof.
  intros E HE. cbn [any_decode]. f_equal. unfold hilbert_decode.
  change (deser (TPair TU32 TU32) (list N) list_next ([2; 0; 0; 0; 1; 0; 0; 0] ++ 3 :: [3; 0; 0; 0; 0; 0; 0; 0; 7; 8; 9])%N) with (@Ok (N * N) (2, 1)%N, [3; 3; 0; 0; 0; 0; 0; 0; 0; 7; 8; 9]%N).
  cbv beta iota. unfold decode_any. rewrite HE. vm_compute. reflexivity.
Qed.
Lemma foreign_empty : unpacks [] ([1; 0; 0] ++ [1; 128; 1; 0] ++ [1; 128; 1; 0] ++ [1; 128; 1; 0] ++ [4; 0; 0; 0; 0; 0] ++ [])%N (repeat 0%N 8) Finished
  /\ zip_decode Debug 5 ZBack list_next ([1; 0; 0] ++ [1; 128; 1; 0] ++ [1; 128; 1; 0] ++ [1; 128; 1; 0] ++ [4; 0; 0; 0; 0; 0])%N = Ok (mkImg 0 0 [])
  /\ zip_decode Release 5 ZDict list_next (repeat 0%N 16) = Ok (mkImg 0 0 []).
Proof.
  split; [|split; vm_compute; reflexivity].
  lit [0]%N. copy 1%N 1%N [0]%N. copy 1%N 1%N [0]%N. copy 1%N 1%N [0]%N. lit [0; 0; 0; 0]%N. apply unpacks_end. cbn. lia.
Qed.
