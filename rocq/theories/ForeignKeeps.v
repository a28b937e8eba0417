(** * Decoders on arbitrary bytes: what they return is an image. *)
From Coq Require Import ZifyBool ZifyNat ZifyN.
From Verif Require Import Base Ser SerSpec SerProofs Bit Utils Huf HufSpec Dict Back Img Float HilbertC CodecSpec Kmeans ClusterC ClusterSpec Prs Select Bench.

Definition keeps {T A} (P : A -> Prop) (I : T -> Prop) (m : rd T A) : Prop :=
  forall s x s', I s -> m s = (Ok x, s') -> P x /\ I s'.

Section Keeps.
  Context {T : Type} (I : T -> Prop).
  Lemma keeps_ret {A} (P : A -> Prop) a : P a -> keeps P I (rd_ret a).
  Proof. intros H s x s' Hs [= <- <-]. auto. Qed.
  Lemma keeps_fail {A} (P : A -> Prop) : keeps P I rd_fail.
  Proof. intros s x s' Hs H. discriminate. Qed.
  Lemma keeps_bind {A B} (P : A -> Prop) (Q : B -> Prop) (m : rd T A) f : keeps P I m -> (forall a, P a -> keeps Q I (f a)) -> keeps Q I (rd_bind m f).
  Proof.
    intros Hm Hf s x s' Hs H. unfold rd_bind in H. destruct (m s) as [[a| |] s1] eqn:E; try discriminate.
    destruct (Hm _ _ _ Hs E) as [Ha H1]. exact (Hf a Ha _ _ _ H1 H).
  Qed.
  Lemma keeps_imp {A} (P Q : A -> Prop) (m : rd T A) : (forall a, P a -> Q a) -> keeps P I m -> keeps Q I m.
  Proof. intros H Hm s x s' Hs E. destruct (Hm _ _ _ Hs E). auto. Qed.
  Lemma keeps_times {A} (P : A -> Prop) (m : rd T A) k : keeps P I m -> forall acc, Forall P acc ->
    keeps (fun l => Forall P l /\ length l = (length acc + k)%nat) I (rd_times m k acc).
  Proof.
    intros Hm. induction k as [|k IH]; intros acc Ha; cbn [rd_times].
    - apply keeps_ret. split; [exact Ha|lia].
    - apply (keeps_bind _ _ _ _ Hm). intros a Pa. eapply keeps_imp; [|apply IH; apply Forall_app; auto].
      intros l [H1 H2]. rewrite app_length in H2. cbn in H2. split; [exact H1|lia].
  Qed.
  Lemma keeps_repeat {A} (P : A -> Prop) (m : rd T A) n : keeps P I m ->
    keeps (fun l => Forall P l /\ N.of_nat (length l) = n) I (rd_repeat m n).
  Proof.
    intros Hm s x s' Hs H. rewrite rd_repeat_times in H.
    destruct (keeps_times P m (N.to_nat n) Hm [] ltac:(constructor) s x s' Hs H) as [[H1 H2] H3].
    cbn in H2. repeat split; auto. lia.
  Qed.
  Variable next : nextf T N.
  Hypothesis Hn : keeps u8_ok I next.
  Lemma keeps_le k : forall acc, Forall u8_ok acc -> keeps (fun n => (n < 256 ^ N.of_nat (length acc + k))%N) I (deser_le k next acc).
  Proof.
    induction k as [|k IH]; intros acc Ha; cbn [deser_le].
    - apply keeps_ret. rewrite Nat.add_0_r. now apply of_le_bound.
    - apply (keeps_bind _ _ _ _ Hn). intros b Hb. eapply keeps_imp; [|apply IH; apply Forall_app; auto].
      intros n H. rewrite app_length in H. cbn [length] in H. now replace (length acc + S k)%nat with (length acc + 1 + k)%nat by lia.
  Qed.
  Lemma keeps_deser t : keeps (wf t) I (deser t T next).
  Proof.
    induction t; cbn [deser wf].
    - exact Hn.
    - exact (keeps_le 2 [] ltac:(constructor)).
    - apply (keeps_bind _ _ _ _ (keeps_le 2 [] ltac:(constructor))). intros n H. apply keeps_ret.
      apply i16_of_u16_ok. exact H.
    - exact (keeps_le 4 [] ltac:(constructor)).
    - exact (keeps_le 8 [] ltac:(constructor)).
    - exact (keeps_le 8 [] ltac:(constructor)).
    - eapply keeps_imp; [|exact Hn]. cbn. unfold u8_ok. intros; lia.
    - apply (keeps_bind _ _ _ _ IHt1). intros a Ha. apply (keeps_bind _ _ _ _ IHt2). intros b Hb. apply keeps_ret. auto.
    - apply (keeps_bind _ _ _ _ (keeps_le 8 [] ltac:(constructor))). intros n H.
      eapply keeps_imp; [|exact (keeps_repeat _ _ n IHt)]. intros l [H1 H2]. split; [|exact H1]. subst n. exact H.
    - apply (keeps_bind _ _ _ _ (keeps_repeat _ _ (N.of_nat n) IHt)). intros l [H1 H2].
      destruct (Nat.eqb_spec (length l) n); [apply keeps_ret|apply keeps_fail]. auto.
    - apply (keeps_bind (Forall (wf t))); [apply (keeps_bind _ _ _ _ (keeps_le 8 [] ltac:(constructor))); intros n H; eapply keeps_imp; [|exact (keeps_repeat _ _ n IHt)]; now intros l [? _]|].
      intros l H1. destruct l as [|r [|g [|b [|? ?]]]]; try apply keeps_fail. apply keeps_ret.
      apply Forall_cons_iff in H1 as [? H1]. apply Forall_cons_iff in H1 as [? H1]. apply Forall_cons_iff in H1 as [? H1]. auto.
  Qed.
End Keeps.

(** ** Sources *)
Lemma keeps_list : keeps u8_ok (Forall u8_ok) list_next.
Proof. intros [|b l] x s' Hs H; [discriminate|]. injection H as <- <-. apply Forall_cons_iff in Hs. exact Hs. Qed.

Lemma hm_get_in {K V} (eqb : K -> K -> bool) k (m : list (K * V)) v : hm_get eqb k m = Some v -> exists k', In (k', v) m.
Proof.
  induction m as [|[k' v'] m IH]; cbn; [discriminate|]. destruct (eqb k k').
  - intros [= ->]. eauto.
  - intros H. destruct (IH H). eauto.
Qed.
Lemma hm_insert_in {K V} (eqb : K -> K -> bool) k v (m : list (K * V)) k' v' : In (k', v') (hm_insert eqb k v m) -> v' = v \/ In (k', v') m.
Proof.
  induction m as [|[k1 v1] m IH]; cbn; [intros [[= <- <-]|[]]; auto|]. destruct (eqb k k1); cbn; intros [[= <- <-]|H]; auto.
  destruct (IH H); auto.
Qed.

Section Dict.
  Context {T : Type} (I : T -> Prop) (next : nextf T N).
  Hypothesis Hn : keeps u8_ok I next.
  Definition dict_kept (d : dict_dec T) : Prop :=
    I (dd_stream d) /\ Forall u8_ok (dd_prev d) /\ forall k v, In (k, v) (dd_mapping d) -> Forall u8_ok v.
  Lemma keeps_dict stack : keeps u8_ok dict_kept (dd_next next stack).
  Proof.
    induction stack as [|stack IH]; intros d x s' (H1 & H2 & H3) H; cbn [dd_next] in H; [discriminate|].
    destruct (dd_prev d) as [|b prev] eqn:Ep.
    - destruct (deser_u16 T next (dd_stream d)) as [[s1| |] t] eqn:E1; try discriminate.
      destruct (keeps_deser I next Hn TU16 _ _ _ H1 E1) as [_ H4].
      destruct (deser_u16 T next t) as [[s2| |] t2] eqn:E2; try discriminate.
      destruct (keeps_deser I next Hn TU16 _ _ _ H4 E2) as [_ H5].
      destruct (hm_get N.eqb s1 (dd_mapping d)) as [q1|] eqn:G1; [|discriminate].
      destruct (hm_get N.eqb s2 (dd_mapping d)) as [q2|] eqn:G2; [|discriminate].
      apply hm_get_in in G1 as [k1 G1]. apply hm_get_in in G2 as [k2 G2]. apply H3 in G1. apply H3 in G2.
      assert (HF : Forall u8_ok (q1 ++ q2)) by (apply Forall_app; auto).
      destruct (abbrev_next (dd_abbrev d)) as [[c|] n]; refine (IH _ _ _ _ H); (split; [exact H5|]); (split; cbn [dd_prev dd_mapping]; [exact HF|]); [|exact H3].
      intros k v Hin. apply hm_insert_in in Hin as [->|Hin]; [exact HF|eauto].
    - injection H as <- <-. apply Forall_cons_iff in H2 as [H2 H4]. split; [exact H2|]. split; [exact H1|]. split; [exact H4|exact H3].
  Qed.
  Lemma dict_kept_new s : I s -> dict_kept (zip_dict_decode s).
  Proof.
    intros H. split; [exact H|]. split; [constructor|]. cbn [zip_dict_decode dd_mapping].
    assert (G : forall l m, Forall u8_ok l -> (forall k v, In (k, v) m -> Forall u8_ok v) ->
      forall k v, In (k, v) (fold_left (fun m b => hm_insert N.eqb b [b] m) l m) -> Forall u8_ok v).
    { induction l as [|b l IH]; intros m Hl Hm k v Hin; cbn [fold_left] in Hin; [eauto|]. apply Forall_cons_iff in Hl as [Hb Hl].
      revert Hin. apply IH; [exact Hl|]. intros k' v' Hin. apply hm_insert_in in Hin as [->|Hin]; eauto. }
    intros k v Hin. apply hm_insert_in in Hin as [->|Hin]; [constructor|]. revert Hin. apply G; [|intros ? ? []].
    apply Forall_forall. intros b Hb. unfold all_bytes in Hb. apply in_map_iff in Hb as (n & <- & Hb). apply in_seq in Hb. unfold u8_ok. lia.
  Qed.
End Dict.

Lemma Forall_firstn {A} (P : A -> Prop) n l : Forall P l -> Forall P (firstn n l).
Proof. intros H. rewrite <- (firstn_skipn n l) in H. apply Forall_app in H. apply H. Qed.
Lemma Forall_skipn {A} (P : A -> Prop) n l : Forall P l -> Forall P (skipn n l).
Proof. intros H. rewrite <- (firstn_skipn n l) in H. apply Forall_app in H. apply H. Qed.
Lemma set_nth_length {A} (l : list A) : forall n x, length (set_nth l n x) = length l.
Proof. induction l as [|y l IH]; intros [|n] x; cbn; auto. Qed.
Lemma set_nth_Forall {A} (P : A -> Prop) (l : list A) : forall n x, P x -> Forall P l -> Forall P (set_nth l n x).
Proof. induction l as [|y l IH]; intros [|n] x Hx Hl; cbn; auto; apply Forall_cons_iff in Hl as [? ?]; constructor; auto. Qed.

Section BackKeeps.
  Context {T : Type} (I : T -> Prop) (next : nextf T N) (R : N) (pr : profile).
  Hypothesis Hn : keeps u8_ok I next.
  Definition back_kept (d : bdec T) : Prop := I (bd_iter d) /\ Forall u8_ok (rb_data (bd_history d)) /\ Forall u8_ok (bd_decoded d).
  Lemma take_keeps n : forall s l s', I s -> take_next next n s = (Ok l, s') -> length l = n -> Forall u8_ok l /\ I s'.
  Proof.
    induction n as [|n IH]; intros s l s' Hs H HL; cbn [take_next] in H.
    - injection H as <- <-. auto.
    - destruct (next s) as [[x| |] s1] eqn:E; try discriminate.
      + destruct (Hn _ _ _ Hs E) as [Hx H1]. unfold rd_bind in H. destruct (take_next next n s1) as [[r| |] s2] eqn:E2; try discriminate.
        injection H as <- <-. cbn in HL. destruct (IH _ _ _ H1 E2) as [? ?]; [lia|]. auto.
      + injection H as <- <-. discriminate.
  Qed.
  Lemma write_keeps xs : forall r r', Forall u8_ok xs -> Forall u8_ok (rb_data r) -> rb_write_all R r xs = Ok r' -> Forall u8_ok (rb_data r').
  Proof.
    induction xs as [|x xs IH]; intros r r' Hx Hr H; cbn [rb_write_all] in H; [now injection H as <-|].
    apply Forall_cons_iff in Hx as [Hx Hxs]. unfold rb_write in H.
    destruct (_ <? _)%N; cbn [res_bind] in H; [|discriminate]. apply IH in H; auto. cbn [rb_data]. now apply set_nth_Forall.
  Qed.
  Lemma sequence_keeps r len back l : Forall u8_ok (rb_data r) -> lookback_sequence R pr r len back = Ok l -> Forall u8_ok l.
  Proof.
    intros Hr H. unfold lookback_sequence in H. destruct (lookback_pos R pr r back) as [g| |]; cbn [res_bind] in H; try discriminate.
    destruct (iter_starting pr r g) as [l'| |] eqn:E; cbn [res_bind] in H; try discriminate. injection H as <-. apply Forall_firstn.
    unfold iter_starting in E.
    assert (HS : Forall u8_ok (fst (as_slices r)) /\ Forall u8_ok (snd (as_slices r))).
    { unfold as_slices, valid_slice. destruct (wrapped_around r); cbn; split; auto using Forall_firstn, Forall_skipn. }
    destruct (as_slices r) as [a b]. cbn in HS. destruct HS as [Ha Hb].
    destruct (usub pr _ g _) as [k| |]; cbn [res_bind] in E; try discriminate. unfold slice_from in E.
    destruct (k <=? _)%N; cbn [res_bind] in E.
    - injection E as <-. apply Forall_app. auto using Forall_skipn.
    - destruct (usub pr _ k _) as [k'| |]; cbn [res_bind] in E; try discriminate.
      destruct (k' <=? _)%N; [|discriminate]. injection E as <-. auto using Forall_skipn.
  Qed.
  Lemma keeps_symbol : keeps (fun x => match x with Explicit d => Forall u8_ok d | _ => True end) I (deser_symbol T next).
  Proof.
    unfold deser_symbol. eapply keeps_bind; [exact (keeps_deser I next Hn TU16)|]. intros c _.
    destruct (decompress_len c) as [e len]. destruct (e =? ENUM_CODE_EXPLICIT)%N.
    - intros s x s' Hs H. unfold rd_bind, rd_lift, rd_ret in H. destruct (take_next next (N.to_nat len) s) as [[d| |] s1] eqn:E; try discriminate.
      destruct (N.eqb_spec (N.of_nat (length d)) len); cbn in H; [|discriminate]. injection H as <- <-. apply (take_keeps _ _ _ _ Hs E). lia.
    - destruct (e =? ENUM_CODE_LOOKBACK)%N; [|intros s x s' _ H; discriminate].
      eapply keeps_bind; [exact (keeps_deser I next Hn TU16)|]. intros b _. now apply keeps_ret.
  Qed.
  Lemma decode_keeps d d' : back_kept d -> decode_next next R pr d = Ok d' -> bd_decoded d' <> [] -> bd_decoded d = [] -> back_kept d'.
  Proof.
    intros (H1 & H2 & H3) H Hne H0. unfold decode_next in H. rewrite H0 in H. destruct (deser_symbol T next (bd_iter d)) as [[[data|len back]| |] s1] eqn:E; try discriminate.
    - destruct (keeps_symbol _ _ _ H1 E) as [H4 H5].
      destruct (rb_write_all R (bd_history d) data) as [h| |] eqn:W; try discriminate. injection H as <-.
      split; [exact H5|]. split; cbn [bd_history bd_decoded]; [exact (write_keeps _ _ _ H4 H2 W)|exact H4].
    - destruct (keeps_symbol _ _ _ H1 E) as [_ H5].
      destruct (lookback_sequence R pr (bd_history d) len back) as [bytes| |] eqn:L; cbn [res_bind] in H; try discriminate.
      apply (sequence_keeps _ _ _ _ H2) in L.
      destruct (rb_write_all R (bd_history d) bytes) as [h| |] eqn:W; try discriminate. injection H as <-.
      split; [exact H5|]. split; cbn [bd_history bd_decoded]; [exact (write_keeps _ _ _ L H2 W)|exact L].
    - injection H as <-. cbn in Hne. congruence.
  Qed.
  Lemma keeps_back : keeps u8_ok back_kept (bd_next next R pr).
  Proof.
    intros d x s' Hd H. unfold bd_next in H. destruct (bd_decoded d) as [|b rest] eqn:E.
    - destruct (decode_next next R pr d) as [d'| |] eqn:D; try discriminate.
      destruct (bd_decoded d') as [|b rest] eqn:E'; [discriminate|]. injection H as <- <-.
      destruct (decode_keeps d d' Hd D) as (H1 & H2 & H3); [congruence|exact E|]. rewrite E' in H3. apply Forall_cons_iff in H3 as [H3 H4].
      split; [exact H3|]. split; [exact H1|]. split; [exact H2|exact H4].
    - destruct Hd as (H1 & H2 & H3). rewrite E in H3. injection H as <- <-. apply Forall_cons_iff in H3 as [H3 H4].
      split; [exact H3|]. split; [exact H1|]. split; [exact H2|exact H4].
  Qed.
  Lemma back_kept_new s : I s -> back_kept (bdec_new R s).
  Proof.
    intros H. split; [exact H|]. split; [|constructor]. cbn. apply Forall_forall. intros x Hx. apply repeat_spec in Hx as ->. unfold u8_ok. lia.
  Qed.
End BackKeeps.
