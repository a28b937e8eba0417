(** * Lemmas about writers, iterators and serialization. *)
From Verif Require Import Base Ser SerSpec.
From Coq Require Import ZifyBool ZifyNat ZifyN.
Set Implicit Arguments.
Ltac Zify.zify_post_hook ::= Z.div_mod_to_equations.

(** ** Writers: [emits m bs r] says that [m] writes [bs] and then ends with [r],
    whatever the writer does. *)
Definition put {A} (bs : list N) (r : res A) : io A :=
  io_bind (write_all bs) (fun _ => io_lift r).
Definition emits {A} (m : io A) (bs : list N) (r : res A) : Prop :=
  forall w, m w = put bs r w.

Lemma write_all_app a b w :
  write_all (a ++ b) w = io_bind (write_all a) (fun _ => write_all b) w.
Proof.
  unfold io_bind, write_all. destruct w as [o [k|] f]; cbn [room written flush_fails].
  - rewrite app_length. destruct (Nat.leb_spec (length a) k) as [H|H].
    + cbn [room written flush_fails].
      destruct (Nat.leb_spec (length a + length b) k) as [H1|H1];
      destruct (Nat.leb_spec (length b) (k - length a)) as [H2|H2]; try lia.
      * rewrite app_assoc. do 3 f_equal. lia.
      * rewrite firstn_app, firstn_all2 by lia. rewrite app_assoc. reflexivity.
    + destruct (Nat.leb_spec (length a + length b) k) as [H1|H1]; try lia.
      rewrite firstn_app. replace (k - length a)%nat with O by lia.
      cbn [firstn]. rewrite app_nil_r. reflexivity.
  - rewrite app_assoc. reflexivity.
Qed.

Lemma write_all_nil w : write_all [] w = (Ok tt, w).
Proof.
  destruct w as [o [k|] f]; unfold write_all; cbn [room written flush_fails length Nat.leb];
    rewrite app_nil_r; try reflexivity. do 3 f_equal. lia.
Qed.

Lemma emits_ret {A} (a : A) : emits (io_ret a) [] (Ok a).
Proof. intros w. unfold put, io_bind. rewrite write_all_nil. reflexivity. Qed.
Lemma emits_fail {A} : emits (@io_fail A) [] Err.
Proof. intros w. unfold put, io_bind. rewrite write_all_nil. reflexivity. Qed.
Lemma emits_panic {A} : emits (@io_panic A) [] Panic.
Proof. intros w. unfold put, io_bind. rewrite write_all_nil. reflexivity. Qed.
Lemma emits_lift {A} (r : res A) : emits (io_lift r) [] r.
Proof. intros w. unfold put, io_bind. rewrite write_all_nil. reflexivity. Qed.
Lemma emits_write bs : emits (write_all bs) bs (Ok tt).
Proof.
  intros w. unfold put, io_bind. destruct (write_all bs w) as [[[]| |] w']; reflexivity.
Qed.

Lemma emits_bind {A B} (m : io A) (f : A -> io B) bs1 a bs2 r :
  emits m bs1 (Ok a) -> emits (f a) bs2 r -> emits (io_bind m f) (bs1 ++ bs2) r.
Proof.
  intros Hm Hf w. unfold put. unfold io_bind at 1 2.
  rewrite (Hm w), write_all_app. unfold put, io_bind.
  destruct (write_all bs1 w) as [[[]| |] w1]; try reflexivity.
  unfold io_lift. rewrite (Hf w1). unfold put, io_bind. reflexivity.
Qed.

Lemma emits_bind_err {A B} (m : io A) (f : A -> io B) bs :
  emits m bs Err -> emits (io_bind m f) bs Err.
Proof.
  intros Hm w. unfold io_bind at 1. rewrite (Hm w). unfold put, io_bind.
  destruct (write_all bs w) as [[[]| |] w1]; reflexivity.
Qed.
Lemma emits_bind_panic {A B} (m : io A) (f : A -> io B) bs :
  emits m bs Panic -> emits (io_bind m f) bs Panic.
Proof.
  intros Hm w. unfold io_bind at 1. rewrite (Hm w). unfold put, io_bind.
  destruct (write_all bs w) as [[[]| |] w1]; reflexivity.
Qed.

Lemma emits_ext {A} (m1 m2 : io A) bs r :
  (forall w, m1 w = m2 w) -> emits m2 bs r -> emits m1 bs r.
Proof. intros H H2 w. rewrite H. apply H2. Qed.

Lemma emits_iter {A} (f : A -> io unit) (fmt : A -> list N) (xs : list A) :
  (forall x, In x xs -> emits (f x) (fmt x) (Ok tt)) ->
  emits (io_iter f xs) (concat (map fmt xs)) (Ok tt).
Proof.
  induction xs as [|x xs IH]; intros H; cbn [io_iter map concat].
  - apply emits_ret.
  - apply emits_bind with (a := tt).
    + apply H. now left.
    + apply IH. intros y Hy. apply H. now right.
Qed.

Lemma emits_run_vec {A} (m : io A) bs r :
  emits m bs r -> run_vec m = match r with Ok _ => Ok bs | Err => Err | Panic => Panic end.
Proof.
  intros H. unfold run_vec. rewrite (H vec_writer). unfold put, io_bind, write_all.
  cbn. destruct r; reflexivity.
Qed.

Lemma emits_short {A} (m : io A) bs r k :
  emits m bs r ->
  fst (m (short_writer k)) = (if (length bs <=? k)%nat then r else Err)
  /\ written (snd (m (short_writer k))) = firstn k bs.
Proof.
  intros H. rewrite (H (short_writer k)). unfold put, io_bind, write_all, short_writer.
  cbn [room written flush_fails].
  destruct (Nat.leb_spec (length bs) k) as [Hk|Hk]; cbn; split; try reflexivity.
  - now rewrite firstn_all2.
Qed.

(** ** Iterators *)
Lemma yields_list {A} (l r : list A) : yields list_next (l ++ r) l r.
Proof. induction l as [|x l IH]; econstructor; [reflexivity|exact IH]. Qed.

Lemma yields_list_inv {A} (l s s' : list A) :
  yields list_next s l s' -> s = l ++ s'.
Proof.
  induction 1 as [|s x s1 l s2 Hx Hl IH]; [reflexivity|].
  destruct s as [|y s]; cbn in Hx; [discriminate|].
  injection Hx as -> ->. now rewrite IH.
Qed.

Lemma list_byte_source l : Forall u8_ok l -> byte_source list_next l.
Proof.
  intros H. exists (Forall u8_ok). split; [exact H|].
  intros s Hs. destruct s as [|x s]; cbn; [constructor|]. inversion Hs; auto.
Qed.
Lemma source_step {S} (next : nextf S N) s : byte_source next s ->
  match next s with
  | (Ok b, s') => u8_ok b /\ byte_source next s'
  | (Err, s') => byte_source next s'
  | (Panic, _) => False
  end.
Proof.
  intros [I [Hs HI]]. pose proof (HI s Hs) as H. destruct (next s) as [[b| |] s']; auto.
  - destruct H as [H1 H2]. split; [exact H1|]. exists I. auto.
  - exists I. auto.
Qed.
Lemma source_yields {S} (next : nextf S N) s l s' :
  yields next s l s' -> byte_source next s -> byte_source next s' /\ Forall u8_ok l.
Proof.
  induction 1 as [|s x s1 l s2 Hx Hl IH]; intros H; [auto|].
  apply source_step in H. rewrite Hx in H. destruct H as [H1 H2].
  destruct (IH H2) as [H3 H4]. auto.
Qed.

Lemma yields_app {S A} (next : nextf S A) s l1 s1 l2 s2 :
  yields next s l1 s1 -> yields next s1 l2 s2 -> yields next s (l1 ++ l2) s2.
Proof. induction 1; intros H2; [exact H2|]. econstructor; eauto. Qed.

Lemma yields_app_inv {S A} (next : nextf S A) l1 : forall s l2 s2,
  yields next s (l1 ++ l2) s2 -> exists s1, yields next s l1 s1 /\ yields next s1 l2 s2.
Proof.
  induction l1 as [|x l1 IH]; intros s l2 s2 H.
  - exists s. split; [constructor|exact H].
  - cbn in H. inversion H as [|? ? s0 ? ? Hx Hl]; subst.
    destruct (IH _ _ _ Hl) as [s1 [H1 H2]]. exists s1. split; [econstructor; eauto|exact H2].
Qed.

Lemma yields_det {S A} (next : nextf S A) s l s1 :
  yields next s l s1 -> forall s2, yields next s l s2 -> s1 = s2.
Proof.
  induction 1 as [|s x s1 l s2 Hx Hl IH]; intros s3 H3; inversion H3; subst; [reflexivity|].
  apply IH. congruence.
Qed.

Lemma yields_cons_inv {S A} (next : nextf S A) s x l s2 :
  yields next s (x :: l) s2 -> exists s1, next s = (Ok x, s1) /\ yields next s1 l s2.
Proof. intros H; inversion H; subst. eauto. Qed.

(** ** Little-endian digits *)
Lemma of_le_le k : forall n, (n < 256 ^ N.of_nat k)%N -> of_le_bytes (le_bytes k n) = n.
Proof.
  induction k as [|k IH]; intros n Hn.
  - cbn in *. lia.
  - cbn [le_bytes of_le_bytes]. rewrite Nat2N.inj_succ, N.pow_succ_r' in Hn.
    rewrite IH; [|apply N.div_lt_upper_bound; lia].
    pose proof (N.div_mod n 256). lia.
Qed.
Lemma le_of_le bs : Forall u8_ok bs -> le_bytes (length bs) (of_le_bytes bs) = bs.
Proof.
  induction 1 as [|b bs Hb Hbs IH]; [reflexivity|].
  cbn [length le_bytes of_le_bytes]. unfold u8_ok in Hb.
  replace ((b + 256 * of_le_bytes bs) mod 256)%N with b.
  - replace ((b + 256 * of_le_bytes bs) / 256)%N with (of_le_bytes bs); [now rewrite IH|].
    rewrite N.mul_comm, N.div_add by lia. rewrite N.div_small; lia.
  - rewrite N.mul_comm, N.mod_add by lia. now rewrite N.mod_small.
Qed.
Lemma of_le_bound bs : Forall u8_ok bs -> (of_le_bytes bs < 256 ^ N.of_nat (length bs))%N.
Proof.
  induction 1 as [|b bs Hb Hbs IH]; [cbn; lia|].
  cbn [length of_le_bytes]. rewrite Nat2N.inj_succ, N.pow_succ_r'. unfold u8_ok in Hb. lia.
Qed.
Lemma le_bytes_length k : forall n, length (le_bytes k n) = k.
Proof. induction k; intros; cbn [le_bytes length]; congruence. Qed.
Lemma le_bytes_u8 k : forall n, Forall u8_ok (le_bytes k n).
Proof.
  induction k; intros; cbn [le_bytes]; constructor; auto.
  unfold u8_ok. apply N.mod_lt. lia.
Qed.

Lemma le16_eq n : u16_ok n -> le_bytes 2 n = le16 n.
Proof.
  unfold u16_ok, le16. intros H. cbn [le_bytes].
  rewrite (N.mod_small (n / 256)); [reflexivity|]. apply N.div_lt_upper_bound; lia.
Qed.
Lemma le32_eq n : u32_ok n -> le_bytes 4 n = le32 n.
Proof.
  unfold u32_ok, le32. intros H. cbn [le_bytes].
  rewrite !N.div_div by lia.
  replace (256 * 256)%N with 65536%N by reflexivity.
  replace (256 * (256 * 256))%N with 16777216%N by reflexivity.
  replace (256 * 65536)%N with 16777216%N by reflexivity.
  rewrite (N.mod_small (n / 16777216)); [reflexivity|]. apply N.div_lt_upper_bound; lia.
Qed.
Lemma le_bytes_app j : forall k n,
  le_bytes (j + k) n = le_bytes j n ++ le_bytes k (n / 256 ^ N.of_nat j)%N.
Proof.
  induction j as [|j IH]; intros k n.
  - cbn. now rewrite N.div_1_r.
  - cbn [Nat.add le_bytes app]. rewrite IH. do 3 f_equal.
    rewrite Nat2N.inj_succ, N.pow_succ_r', N.div_div; try lia.

Qed.
Lemma le_bytes_mod k : forall n, le_bytes k (n mod 256 ^ N.of_nat k)%N = le_bytes k n.
Proof.
  induction k as [|k IH]; intros n; [reflexivity|].
  rewrite Nat2N.inj_succ, N.pow_succ_r'. cbn [le_bytes]. f_equal.
  - rewrite N.mod_mul_r; [|lia|apply N.pow_nonzero; lia].
    rewrite N.mul_comm, N.mod_add by lia. apply N.mod_mod. lia.
  - rewrite N.mod_mul_r; [|lia|apply N.pow_nonzero; lia].
    rewrite N.mul_comm, N.div_add by lia.
    rewrite (N.div_small (n mod 256)) by (apply N.mod_lt; lia).
    cbn [N.add]. apply IH.
Qed.
Lemma le64_eq n : u64_ok n -> le_bytes 8 n = le64 n.
Proof.
  unfold u64_ok, le64. intros H. rewrite (le_bytes_app 4 4).
  rewrite <- (le_bytes_mod 4 n).
  change (256 ^ N.of_nat 4)%N with 4294967296%N.
  rewrite (@le32_eq (n mod 4294967296)); [rewrite (@le32_eq (n / 4294967296))|]; [reflexivity| |].
  - unfold u32_ok. apply N.div_lt_upper_bound; lia.
  - unfold u32_ok. apply N.mod_lt. lia.
Qed.

Lemma i16_word z : i16_ok z ->
  Z.to_N (if (z <? 0)%Z then z + 65536 else z)%Z = Z.to_N (z mod 65536)
  /\ u16_ok (Z.to_N (z mod 65536)).
Proof.
  unfold i16_ok, u16_ok. intros H. destruct (Z.ltb_spec z 0).
  - replace (z mod 65536)%Z with (z + 65536)%Z; [split; lia|].
    symmetry. rewrite <- (Z.mod_small (z + 65536) 65536) by lia.
    rewrite <- Z.add_mod_idemp_r, Z.mod_same, Z.add_0_r by lia. reflexivity.
  - rewrite Z.mod_small by lia. split; lia.
Qed.
Lemma i16_of_u16_word z : i16_ok z -> i16_of_u16 (Z.to_N (z mod 65536)) = z.
Proof.
  unfold i16_ok, i16_of_u16. intros H.
  destruct (N.ltb_spec (Z.to_N (z mod 65536)) 32768); lia.
Qed.
Lemma i16_of_u16_ok n : u16_ok n ->
  i16_ok (i16_of_u16 n) /\ Z.to_N (i16_of_u16 n mod 65536) = n.
Proof.
  unfold i16_ok, u16_ok, i16_of_u16. intros H.
  destruct (N.ltb_spec n 32768); lia.
Qed.

(** ** Generic correctness of a (serializer, deserializer) pair *)
Record ser_ok {A} (P : A -> Prop) (fmt : A -> option (list N)) (s : A -> io unit) : Prop := {
  so_ok : forall v bs, P v -> fmt v = Some bs -> emits (s v) bs (Ok tt);
  so_err : forall v, P v -> fmt v = None -> exists bs, emits (s v) bs Err;
}.

Record deser_ok {A} (P : A -> Prop) (fmt : A -> option (list N)) (d : deserializer A) : Prop := {
  do_rt : forall v bs, P v -> fmt v = Some bs ->
    forall S (next : nextf S N) s s', yields next s bs s' -> d S next s = (Ok v, s');
  do_canon : forall S (next : nextf S N) s v s', byte_source next s -> d S next s = (Ok v, s') ->
    P v /\ exists bs, fmt v = Some bs /\ yields next s bs s';
  do_trunc : forall v bs p, P v -> fmt v = Some bs -> strict_prefix p bs ->
    forall S (next : nextf S N) s s1 s2, yields next s p s1 -> next s1 = (Err, s2) ->
    d S next s = (Err, s2);
  do_nopanic : forall S (next : nextf S N) s, byte_source next s -> fst (d S next s) <> Panic;
}.

Lemma strict_prefix_nil {A} (p : list A) : ~ strict_prefix p [].
Proof. intros [x [r H]]. destruct p; discriminate. Qed.
Lemma strict_prefix_cons {A} x (p l : list A) :
  strict_prefix p (x :: l) -> p = [] \/ exists p', p = x :: p' /\ strict_prefix p' l.
Proof.
  intros [y [r H]]. destruct p as [|z p]; [now left|right].
  injection H as -> ->. exists p. split; [reflexivity|]. exists y, r. reflexivity.
Qed.
Lemma strict_prefix_app {A} (a b p : list A) :
  strict_prefix p (a ++ b) -> strict_prefix p a \/ exists p', p = a ++ p' /\ strict_prefix p' b.
Proof.
  revert p. induction a as [|x a IH]; intros p H; cbn in *.
  - right. exists p. auto.
  - apply strict_prefix_cons in H. destruct H as [->|[p' [-> H]]].
    + left. exists x, a. reflexivity.
    + destruct (IH _ H) as [[y [r ->]]|[p'' [-> H']]].
      * left. exists y, r. reflexivity.
      * right. exists p''. auto.
Qed.

(** one byte *)
Lemma deser_u8_ok : deser_ok u8_ok (fun n => Some [n]) deser_u8.
Proof.
  split.
  - intros v bs Hv [= <-] S next s s' H. apply yields_cons_inv in H as [s1 [H H1]].
    inversion H1; subst. exact H.
  - intros S next s v s' Hb H. unfold deser_u8 in H.
    apply source_step in Hb. rewrite H in Hb. destruct Hb as [Hv _]. split; [exact Hv|].
    exists [v]. split; [reflexivity|]. econstructor; [exact H|constructor].
  - intros v bs p Hv [= <-] Hp S next s s1 s2 Hy Hn.
    apply strict_prefix_cons in Hp as [->|[p' [_ Hp]]]; [|now apply strict_prefix_nil in Hp].
    inversion Hy; subst. exact Hn.
  - intros S next s Hb. unfold deser_u8. apply source_step in Hb.
    destruct (next s) as [[]]; cbn; congruence || contradiction.
Qed.

Lemma deser_le_rt k : forall S (next : nextf S N) s bs s' acc,
  length bs = k -> yields next s bs s' -> deser_le k next acc s = (Ok (of_le_bytes (acc ++ bs)), s').
Proof.
  induction k as [|k IH]; intros S next s bs s' acc Hl Hy.
  - destruct bs; [|discriminate]. inversion Hy; subst. cbn. now rewrite app_nil_r.
  - destruct bs as [|b bs]; [discriminate|]. apply yields_cons_inv in Hy as [s1 [H1 H2]].
    cbn [deser_le]. unfold rd_bind. rewrite H1.
    rewrite (IH _ _ _ bs s'); [|cbn in Hl; congruence|exact H2].
    rewrite <- app_assoc. reflexivity.
Qed.
Lemma deser_le_canon k : forall S (next : nextf S N) s acc n s',
  byte_source next s -> deser_le k next acc s = (Ok n, s') ->
  exists bs, length bs = k /\ Forall u8_ok bs /\ yields next s bs s' /\ n = of_le_bytes (acc ++ bs).
Proof.
  induction k as [|k IH]; intros S next s acc n s' Hb H.
  - cbn in H. injection H as <- <-. exists []. rewrite app_nil_r. repeat split; constructor.
  - cbn [deser_le] in H. unfold rd_bind in H. apply source_step in Hb.
    destruct (next s) as [[b| |] s1] eqn:E; try discriminate. destruct Hb as [Hbs Hb].
    apply IH in H; [|exact Hb]. destruct H as [bs [Hl [Hu [Hy ->]]]].
    exists (b :: bs). repeat split.
    + cbn. now rewrite Hl.
    + now constructor.
    + econstructor; eauto.
    + now rewrite <- app_assoc.
Qed.
Lemma deser_le_trunc k : forall S (next : nextf S N) s acc p s1 s2,
  (length p < k)%nat -> yields next s p s1 -> next s1 = (Err, s2) ->
  deser_le k next acc s = (Err, s2).
Proof.
  induction k as [|k IH]; intros S next s acc p s1 s2 Hl Hy Hn; [lia|].
  cbn [deser_le]. unfold rd_bind. destruct p as [|b p].
  - inversion Hy; subst. now rewrite Hn.
  - apply yields_cons_inv in Hy as [s0 [H1 H2]]. rewrite H1.
    eapply IH; eauto. cbn in Hl. lia.
Qed.
Lemma deser_le_nopanic k : forall S (next : nextf S N) s acc,
  byte_source next s -> fst (deser_le k next acc s) <> Panic.
Proof.
  induction k as [|k IH]; intros S next s acc Hb; [cbn; congruence|].
  cbn [deser_le]. unfold rd_bind. apply source_step in Hb. destruct (next s) as [[b| |] s1]; cbn; [apply IH; tauto|congruence|contradiction].
Qed.

Lemma deser_word_ok k (P : N -> Prop) :
  (forall n, P n <-> (n < 256 ^ N.of_nat k)%N) ->
  deser_ok P (fun n => Some (le_bytes k n)) (fun S next => deser_le k next []).
Proof.
  intros HP. split.
  - intros v bs Hv [= <-] S next s s' Hy.
    rewrite (@deser_le_rt k _ _ _ (le_bytes k v) s'); [|apply le_bytes_length|exact Hy].
    cbn [app]. rewrite of_le_le; [reflexivity|]. now apply HP.
  - intros S next s v s' Hb H. apply deser_le_canon in H; [|exact Hb].
    destruct H as [bs [Hl [Hu [Hy ->]]]]. cbn [app]. split.
    + apply HP. rewrite <- Hl. now apply of_le_bound.
    + exists bs. split; [|exact Hy]. rewrite <- Hl. now rewrite le_of_le.
  - intros v bs p Hv [= <-] [x [r Hp]] S next s s1 s2 Hy Hn.
    eapply deser_le_trunc; eauto. apply (f_equal (@length N)) in Hp.
    rewrite le_bytes_length, app_length in Hp. cbn in Hp. lia.
  - intros. now apply deser_le_nopanic.
Qed.

(** Change of format and of range *)
Lemma deser_ok_ext {A} (P : A -> Prop) f1 f2 d :
  (forall v, P v -> f1 v = f2 v) -> deser_ok P f1 d -> deser_ok P f2 d.
Proof.
  intros Hf [H1 H2 H3 H4]. split.
  - intros v bs Hv Hfv. rewrite <- Hf in Hfv by exact Hv. eauto.
  - intros S next s v s' Hb H. destruct (H2 _ _ _ _ _ Hb H) as [Hv [bs [Hbs Hy]]].
    split; [exact Hv|]. exists bs. rewrite <- Hf by exact Hv. auto.
  - intros v bs p Hv Hfv. rewrite <- Hf in Hfv by exact Hv. eauto.
  - exact H4.
Qed.
Lemma ser_ok_ext {A} (P : A -> Prop) f1 f2 s :
  (forall v, P v -> f1 v = f2 v) -> ser_ok P f1 s -> ser_ok P f2 s.
Proof.
  intros Hf [H1 H2]. split; intros v; intros.
  - apply H1; [assumption|]. rewrite Hf; assumption.
  - apply H2; [assumption|]. rewrite Hf; assumption.
Qed.
Lemma ser_simple_ok {A} (P : A -> Prop) (f : A -> list N) :
  ser_ok P (fun v => Some (f v)) (fun v => write_all (f v)).
Proof.
  split.
  - intros v bs _ [= <-]. apply emits_write.
  - discriminate.
Qed.

Lemma deser_i16_ok : deser_ok i16_ok (fun z => Some (le_bytes 2 (Z.to_N (z mod 65536)))) deser_i16.
Proof.
  assert (W := @deser_word_ok 2 u16_ok ltac:(intros; unfold u16_ok; change (256 ^ N.of_nat 2)%N with 65536%N; lia)).
  destruct W as [H1 H2 H3 H4]. split.
  - intros v bs Hv [= <-] S next s s' Hy. unfold deser_i16, rd_bind.
    rewrite (H1 (Z.to_N (v mod 65536)) _ (proj2 (i16_word Hv)) eq_refl _ _ _ _ Hy).
    unfold rd_ret. now rewrite i16_of_u16_word.
  - intros S next s v s' Hb H. unfold deser_i16, rd_bind in H.
    destruct (deser_le 2 next [] s) as [[n| |] s1] eqn:E; try discriminate.
    injection H as <- <-. destruct (H2 _ _ _ _ _ Hb E) as [Hn [bs [Hbs Hy]]].
    destruct (i16_of_u16_ok Hn) as [Ha Hz]. split; [exact Ha|].
    exists bs. now rewrite Hz.
  - intros v bs p Hv [= <-] Hp S next s s1 s2 Hy Hn. unfold deser_i16, rd_bind.
    now rewrite (H3 (Z.to_N (v mod 65536)) _ p (proj2 (i16_word Hv)) eq_refl Hp _ _ _ _ _ Hy Hn).
  - intros S next s Hb. unfold deser_i16, rd_bind. specialize (H4 _ _ s Hb).
    destruct (deser_le 2 next [] s) as [[n| |] s1]; cbn in *; congruence.
Qed.

Lemma app_opt_some a b c : app_opt a b = Some c ->
  exists x y, a = Some x /\ b = Some y /\ c = x ++ y.
Proof.
  destruct a as [x|]; [|discriminate]. destruct b as [y|]; [|discriminate].
  intros [= <-]. exists x, y. cbn. now rewrite app_nil_r.
Qed.
Lemma app_opt_eq x y : app_opt (Some x) (Some y) = Some (x ++ y).
Proof. cbn. now rewrite app_nil_r. Qed.

Lemma deser_pair_ok {A B} PA PB fa fb (da : deserializer A) (db : deserializer B) :
  deser_ok PA fa da -> deser_ok PB fb db ->
  deser_ok (fun p => PA (fst p) /\ PB (snd p)) (fun p => app_opt (fa (fst p)) (fb (snd p)))
           (deser_pair da db).
Proof.
  intros [A1 A2 A3 A4] [B1 B2 B3 B4]. split.
  - intros [a b] bs [Ha Hb] Hf S next s s' Hy. cbn [fst snd] in *.
    apply app_opt_some in Hf as [x [y [Hx [Hy' ->]]]].
    apply yields_app_inv in Hy as [s1 [Y1 Y2]].
    unfold deser_pair, rd_bind. rewrite (A1 _ _ Ha Hx _ _ _ _ Y1), (B1 _ _ Hb Hy' _ _ _ _ Y2). reflexivity.
  - intros S next s [a b] s' Hs H. unfold deser_pair, rd_bind in H.
    destruct (da S next s) as [[a'| |] s1] eqn:E1; try discriminate.
    destruct (db S next s1) as [[b'| |] s2] eqn:E2; try discriminate.
    injection H as -> -> ->.
    destruct (A2 _ _ _ _ _ Hs E1) as [Pa [x [Fa Ya]]].
    destruct (B2 _ _ _ _ _ (proj1 (source_yields Ya Hs)) E2) as [Pb [y [Fb Yb]]].
    cbn [fst snd]. split; [auto|]. exists (x ++ y). rewrite Fa, Fb, app_opt_eq.
    split; [reflexivity|]. eapply yields_app; eauto.
  - intros [a b] bs p [Ha Hb] Hf Hp S next s s1 s2 Hy Hn. cbn [fst snd] in *.
    apply app_opt_some in Hf as [x [y [Hx [Hy' ->]]]].
    unfold deser_pair, rd_bind.
    apply strict_prefix_app in Hp as [Hp|[p' [-> Hp]]].
    + now rewrite (A3 _ _ _ Ha Hx Hp _ _ _ _ _ Hy Hn).
    + apply yields_app_inv in Hy as [s0 [Y1 Y2]].
      rewrite (A1 _ _ Ha Hx _ _ _ _ Y1).
      now rewrite (B3 _ _ _ Hb Hy' Hp _ _ _ _ _ Y2 Hn).
  - intros S next s Hs. unfold deser_pair, rd_bind.
    specialize (A4 _ _ s Hs). destruct (da S next s) as [[a| |] s1] eqn:E1; cbn in *; try congruence.
    destruct (A2 _ _ _ _ _ Hs E1) as [_ [x [_ Ya]]].
    specialize (B4 _ _ s1 (proj1 (source_yields Ya Hs))). destruct (db S next s1) as [[b| |] s2]; cbn in *; congruence.
Qed.
Lemma ser_pair_ok {A B} PA PB fa fb (sa : A -> io unit) (sb : B -> io unit) :
  ser_ok PA fa sa -> ser_ok PB fb sb ->
  ser_ok (fun p => PA (fst p) /\ PB (snd p)) (fun p => app_opt (fa (fst p)) (fb (snd p)))
         (ser_pair sa sb).
Proof.
  intros [A1 A2] [B1 B2]. split.
  - intros [a b] bs [Ha Hb] Hf. cbn [fst snd] in *. apply app_opt_some in Hf as [x [y [Hx [Hy ->]]]].
    unfold ser_pair. apply emits_bind with (a := tt); cbn [fst snd]; auto.
  - intros [a b] [Ha Hb] Hf. cbn [fst snd] in *. unfold ser_pair.
    destruct (fa a) as [x|] eqn:E1.
    + destruct (fb b) as [y|] eqn:E2; [cbn in Hf; discriminate|].
      destruct (B2 _ Hb E2) as [bs Hbs]. exists (x ++ bs). cbn [fst snd].
      apply emits_bind with (a := tt); auto.
    + destruct (A2 _ Ha E1) as [bs Hbs]. exists bs. now apply emits_bind_err.
Qed.

(** Repetition *)
Fixpoint rd_times {S A} (m : rd S A) (k : nat) (acc : list A) : rd S (list A) :=
  match k with
  | O => rd_ret acc
  | Datatypes.S k => rd_bind m (fun x => rd_times m k (acc ++ [x]))
  end.
Lemma rd_times_app {S A} (m : rd S A) j k : forall acc s,
  rd_times m (j + k) acc s = rd_bind (rd_times m j acc) (fun acc => rd_times m k acc) s.
Proof.
  induction j as [|j IH]; intros acc s; [reflexivity|].
  cbn [Nat.add rd_times]. unfold rd_bind. destruct (m s) as [[x| |] s1]; try reflexivity.
  rewrite IH. reflexivity.
Qed.
Lemma rd_repeat_pos_times {S A} (m : rd S A) p : forall acc s,
  rd_repeat_pos m p acc s = rd_times m (Pos.to_nat p) acc s.
Proof.
  induction p as [p IH|p IH|]; intros acc s; cbn [rd_repeat_pos].
  - rewrite Pos2Nat.inj_xI. replace (Datatypes.S (2 * Pos.to_nat p)) with (1 + (Pos.to_nat p + Pos.to_nat p))%nat by lia.
    rewrite rd_times_app. cbn [rd_times]. unfold rd_bind.
    destruct (m s) as [[x| |] s1]; try reflexivity. unfold rd_ret. rewrite IH, rd_times_app. unfold rd_bind.
    destruct (rd_times m (Pos.to_nat p) (acc ++ [x]) s1) as [[l| |] s2]; try reflexivity.
    now rewrite IH.
  - rewrite Pos2Nat.inj_xO. replace (2 * Pos.to_nat p)%nat with (Pos.to_nat p + Pos.to_nat p)%nat by lia.
    rewrite rd_times_app. unfold rd_bind. rewrite IH.
    destruct (rd_times m (Pos.to_nat p) acc s) as [[l| |] s2]; try reflexivity.
    now rewrite IH.
  - cbn. unfold rd_bind. reflexivity.
Qed.
Lemma rd_repeat_times {S A} (m : rd S A) n s :
  rd_repeat m n s = rd_times m (N.to_nat n) [] s.
Proof. destruct n; [reflexivity|]. cbn [rd_repeat N.to_nat]. apply rd_repeat_pos_times. Qed.

Section Times.
  Context {A : Type} (P : A -> Prop) (fmt : A -> option (list N)) (d : deserializer A).
  Arguments d : clear implicits.
  Hypothesis Hd : deser_ok P fmt d.

  Lemma concat_opt_some l bs : concat_opt l = Some bs ->
    match l with [] => bs = [] | x :: l => exists a b, x = Some a /\ concat_opt l = Some b /\ bs = a ++ b end.
  Proof.
    destruct l as [|x l]; cbn; [now intros [= <-]|].
    destruct x as [a|]; [|discriminate]. destruct (concat_opt l) as [b|]; [|discriminate].
    intros [= <-]. exists a, b. auto.
  Qed.

  Lemma times_rt l : forall bs acc, Forall P l -> concat_opt (map fmt l) = Some bs ->
    forall S (next : nextf S N) s s', yields next s bs s' ->
    rd_times (d S next) (length l) acc s = (Ok (acc ++ l), s').
  Proof.
    induction l as [|x l IH]; intros bs acc HP Hf S next s s' Hy.
    - cbn in Hf. injection Hf as <-. inversion Hy; subst. cbn. now rewrite app_nil_r.
    - cbn [map] in Hf. apply concat_opt_some in Hf as [a [b [Ha [Hb ->]]]].
      apply Forall_cons_iff in HP as [Px Pl]. apply yields_app_inv in Hy as [s1 [Y1 Y2]].
      cbn [length rd_times]. unfold rd_bind.
      rewrite (do_rt Hd x Px Ha Y1).
      rewrite (IH _ (acc ++ [x]) Pl Hb _ _ _ _ Y2).
      now rewrite <- app_assoc.
  Qed.

  Lemma times_canon k : forall acc S (next : nextf S N) s l s', byte_source next s ->
    rd_times (d S next) k acc s = (Ok l, s') ->
    exists l' bs, l = acc ++ l' /\ length l' = k /\ Forall P l' /\ concat_opt (map fmt l') = Some bs
                  /\ yields next s bs s'.
  Proof.
    induction k as [|k IH]; intros acc S next s l s' Hb H.
    - cbn in H. injection H as <- <-. exists [], []. rewrite app_nil_r. repeat split; constructor.
    - cbn [rd_times] in H. unfold rd_bind in H.
      destruct (d S next s) as [[x| |] s1] eqn:E; try discriminate.
      destruct (do_canon Hd Hb E) as [Px [a [Fa Ya]]].
      apply IH in H; [|exact (proj1 (source_yields Ya Hb))].
      destruct H as [l' [bs [-> [Hl [HF [Hc Hy]]]]]].
      exists (x :: l'), (a ++ bs). repeat split.
      + now rewrite <- app_assoc.
      + cbn. now rewrite Hl.
      + now constructor.
      + cbn [map concat_opt]. now rewrite Fa, Hc.
      + eapply yields_app; eauto.
  Qed.

  Lemma times_trunc l : forall bs p acc, Forall P l -> concat_opt (map fmt l) = Some bs ->
    strict_prefix p bs ->
    forall S (next : nextf S N) s s1 s2, yields next s p s1 -> next s1 = (Err, s2) ->
    rd_times (d S next) (length l) acc s = (Err, s2).
  Proof.
    induction l as [|x l IH]; intros bs p acc HP Hf Hp S next s s1 s2 Hy Hn.
    - cbn in Hf. injection Hf as <-. now apply strict_prefix_nil in Hp.
    - cbn [map] in Hf. apply concat_opt_some in Hf as [a [b [Ha [Hb ->]]]].
      apply Forall_cons_iff in HP as [Px Pl]. cbn [length rd_times]. unfold rd_bind.
      apply strict_prefix_app in Hp as [Hp|[p' [-> Hp]]].
      + now rewrite (do_trunc Hd x Px Ha Hp Hy Hn).
      + apply yields_app_inv in Hy as [s0 [Y1 Y2]].
        rewrite (do_rt Hd x Px Ha Y1). eauto.
  Qed.

  Lemma times_nopanic k : forall acc S (next : nextf S N) s, byte_source next s ->
    fst (rd_times (d S next) k acc s) <> Panic.
  Proof.
    induction k as [|k IH]; intros acc S next s Hb; [cbn; congruence|].
    cbn [rd_times]. unfold rd_bind. pose proof (do_nopanic Hd Hb).
    destruct (d S next s) as [[x| |] s1] eqn:E; cbn in *; try congruence.
    destruct (do_canon Hd Hb E) as [_ [a [_ Ya]]].
    apply IH. exact (proj1 (source_yields Ya Hb)).
  Qed.
End Times.

Lemma deser_u64_ok : deser_ok u64_ok (fun n => Some (le_bytes 8 n)) deser_u64.
Proof.
  apply (@deser_word_ok 8). intros. unfold u64_ok.
  change (256 ^ N.of_nat 8)%N with 18446744073709551616%N. lia.
Qed.

Lemma deser_vec_ok {A} (P : A -> Prop) fmt (d : deserializer A) :
  deser_ok P fmt d ->
  deser_ok (fun l => u64_ok (N.of_nat (length l)) /\ Forall P l)
           (fun l => app_opt (Some (le_bytes 8 (N.of_nat (length l)))) (concat_opt (map fmt l)))
           (deser_vec d).
Proof.
  intros Hd. split.
  - intros l bs [Hl HP] Hf S next s s' Hy. apply app_opt_some in Hf as [x [y [[= <-] [Hf ->]]]].
    apply yields_app_inv in Hy as [s1 [Y1 Y2]]. unfold deser_vec, rd_bind.
    change (deser_usize S next s) with (deser_u64 S next s).
    rewrite (do_rt deser_u64_ok _ Hl eq_refl Y1).
    rewrite rd_repeat_times, Nat2N.id. now rewrite (times_rt Hd [] HP Hf Y2).
  - intros S next s l s' Hb H. unfold deser_vec, rd_bind in H.
    destruct (deser_usize S next s) as [[n| |] s1] eqn:E; try discriminate.
    destruct (do_canon deser_u64_ok Hb E) as [Hn [b1 [[= <-] Y1]]].
    rewrite rd_repeat_times in H. apply (times_canon Hd) in H; [|exact (proj1 (source_yields Y1 Hb))].
    destruct H as [l' [bs [-> [Hl [HF [Hc Hy]]]]]]. cbn [app].
    rewrite Hl, N2Nat.id. split; [auto|].
    exists (le_bytes 8 n ++ bs). rewrite Hc, app_opt_eq. split; [reflexivity|].
    eapply yields_app; eauto.
  - intros l bs p [Hl HP] Hf Hp S next s s1 s2 Hy Hn.
    apply app_opt_some in Hf as [x [y [[= <-] [Hf ->]]]].
    unfold deser_vec, rd_bind. change (deser_usize S next s) with (deser_u64 S next s).
    apply strict_prefix_app in Hp as [Hp|[p' [-> Hp]]].
    + now rewrite (do_trunc deser_u64_ok _ Hl eq_refl Hp Hy Hn).
    + apply yields_app_inv in Hy as [s0 [Y1 Y2]].
      rewrite (do_rt deser_u64_ok _ Hl eq_refl Y1).
      rewrite rd_repeat_times, Nat2N.id. exact (times_trunc Hd [] HP Hf Hp Y2 Hn).
  - intros S next s Hb. unfold deser_vec, rd_bind.
    pose proof (do_nopanic deser_u64_ok Hb) as H.
    change (deser_usize S next s) with (deser_u64 S next s).
    destruct (deser_u64 S next s) as [[n| |] s1] eqn:E; cbn in *; try congruence.
    destruct (do_canon deser_u64_ok Hb E) as [_ [b1 [_ Y1]]].
    rewrite rd_repeat_times. apply (times_nopanic Hd). exact (proj1 (source_yields Y1 Hb)).
Qed.

Lemma concat_opt_none {A} (f : A -> option (list N)) l :
  concat_opt (map f l) = None ->
  exists l1 x l2 bs, l = l1 ++ x :: l2 /\ concat_opt (map f l1) = Some bs /\ f x = None.
Proof.
  induction l as [|x l IH]; cbn [map concat_opt]; [discriminate|].
  destruct (f x) as [a|] eqn:E.
  - destruct (concat_opt (map f l)) as [b|] eqn:E2; [discriminate|]. intros _.
    destruct (IH eq_refl) as [l1 [y [l2 [bs [-> [H1 H2]]]]]].
    exists (x :: l1), y, l2, (a ++ bs). cbn [map concat_opt]. rewrite E, H1. auto.
  - intros _. exists [], x, l, []. auto.
Qed.

Lemma iter_ok {A} (P : A -> Prop) fmt (sa : A -> io unit) :
  ser_ok P fmt sa ->
  forall l, Forall P l ->
  (forall bs, concat_opt (map fmt l) = Some bs -> emits (io_iter sa l) bs (Ok tt))
  /\ (concat_opt (map fmt l) = None -> exists bs, emits (io_iter sa l) bs Err).
Proof.
  intros [H1 H2]. induction l as [|x l IH]; intros HP.
  - split; [|discriminate]. intros bs [= <-]. apply emits_ret.
  - inversion HP as [|? ? Px Pl]; subst. specialize (IH Pl) as [IH1 IH2]. cbn [map io_iter]. split.
    + intros bs Hf. apply concat_opt_some in Hf as [a [b [Ha [Hb ->]]]].
      apply emits_bind with (a := tt); auto.
    + cbn [concat_opt]. intros Hf. destruct (fmt x) as [a|] eqn:E.
      * destruct (concat_opt (map fmt l)) as [b|] eqn:E2; [discriminate|].
        destruct (IH2 eq_refl) as [bs Hbs]. exists (a ++ bs). apply emits_bind with (a := tt); auto.
      * destruct (H2 _ Px E) as [bs Hbs]. exists bs. now apply emits_bind_err.
Qed.

Lemma ser_slice_ok {A} (P : A -> Prop) fmt (sa : A -> io unit) :
  ser_ok P fmt sa ->
  ser_ok (fun l => u64_ok (N.of_nat (length l)) /\ Forall P l)
         (fun l => app_opt (Some (le_bytes 8 (N.of_nat (length l)))) (concat_opt (map fmt l)))
         (ser_slice sa).
Proof.
  intros Hs. split.
  - intros l bs [Hl HP] Hf. apply app_opt_some in Hf as [x [y [[= <-] [Hf ->]]]].
    unfold ser_slice. apply emits_bind with (a := tt); [apply emits_write|].
    now apply (proj1 (iter_ok Hs HP)).
  - intros l [Hl HP] Hf. destruct (concat_opt (map fmt l)) as [b|] eqn:E; [cbn in Hf; discriminate|].
    destruct (proj2 (iter_ok Hs HP) E) as [bs Hbs].
    exists (le_bytes 8 (N.of_nat (length l)) ++ bs).
    unfold ser_slice. apply emits_bind with (a := tt); [apply emits_write|exact Hbs].
Qed.

Lemma deser_array_ok {A} (P : A -> Prop) fmt (d : deserializer A) n :
  deser_ok P fmt d ->
  deser_ok (fun l => length l = n /\ Forall P l) (fun l => concat_opt (map fmt l)) (deser_array n d).
Proof.
  intros Hd. split.
  - intros l bs [Hl HP] Hf S next s s' Hy. unfold deser_array, rd_bind.
    rewrite rd_repeat_times, Nat2N.id, <- Hl. rewrite (times_rt Hd [] HP Hf Hy).
    cbn [app]. now rewrite Nat.eqb_refl.
  - intros S next s l s' Hb H. unfold deser_array, rd_bind in H.
    destruct (rd_repeat (d S next) (N.of_nat n) s) as [[l'| |] s1] eqn:E; try discriminate.
    rewrite rd_repeat_times, Nat2N.id in E. apply (times_canon Hd) in E; [|exact Hb].
    destruct E as [l'' [bs [-> [Hl [HF [Hc Hy]]]]]]. cbn [app] in H.
    destruct (length l'' =? n)%nat eqn:En; [|discriminate]. injection H as -> ->.
    split; [auto|]. exists bs. auto.
  - intros l bs p [Hl HP] Hf Hp S next s s1 s2 Hy Hn. unfold deser_array, rd_bind.
    rewrite rd_repeat_times, Nat2N.id, <- Hl.
    now rewrite (times_trunc Hd [] HP Hf Hp Hy Hn).
  - intros S next s Hb. unfold deser_array, rd_bind.
    rewrite rd_repeat_times. pose proof (times_nopanic Hd (N.to_nat (N.of_nat n)) [] Hb) as H.
    destruct (rd_times (d S next) (N.to_nat (N.of_nat n)) [] s) as [[l| |] s1]; cbn in *; try congruence.
    destruct (length l =? n)%nat; cbn; congruence.
Qed.
Lemma ser_array_ok {A} (P : A -> Prop) fmt (sa : A -> io unit) n :
  ser_ok P fmt sa ->
  ser_ok (fun l => length l = n /\ Forall P l) (fun l => concat_opt (map fmt l)) (ser_array sa).
Proof.
  intros Hs. split.
  - intros l bs [Hl HP] Hf. now apply (proj1 (iter_ok Hs HP)).
  - intros l [Hl HP] Hf. now apply (proj2 (iter_ok Hs HP)).
Qed.

(** Conversions between types: an iso-like embedding of [B] in [A]. *)
Lemma deser_rgb_ok {A} (P : A -> Prop) fmt (d : deserializer A) :
  deser_ok P fmt d ->
  deser_ok (fun c => Forall P (rgb_list c))
           (fun c => app_opt (Some (le_bytes 8 3)) (concat_opt (map fmt (rgb_list c))))
           (deser_rgb d).
Proof.
  intros Hd. pose proof (deser_vec_ok Hd) as [H1 H2 H3 H4].
  assert (L : forall c : rgb A, length (rgb_list c) = 3%nat) by (intros [[? ?] ?]; reflexivity).
  assert (L3 : u64_ok (N.of_nat 3)) by (unfold u64_ok; lia).
  split.
  - intros c bs HP Hf S next s s' Hy. unfold deser_rgb, rd_bind.
    rewrite (H1 (rgb_list c) bs) with (s' := s'); [| | |exact Hy].
    + destruct c as [[r g] b]. reflexivity.
    + rewrite L. auto.
    + rewrite L. exact Hf.
  - intros S next s c s' Hb H. unfold deser_rgb, rd_bind in H.
    destruct (deser_vec d S next s) as [[l| |] s1] eqn:E; try discriminate.
    destruct (H2 _ _ _ _ _ Hb E) as [[Hl HP] [bs [Hf Hy]]].
    destruct l as [|r [|g [|b [|]]]]; try discriminate. injection H as <- <-.
    split; [exact HP|]. exists bs. auto.
  - intros c bs p HP Hf Hp S next s s1 s2 Hy Hn. unfold deser_rgb, rd_bind.
    rewrite (H3 (rgb_list c) bs p) with (s1 := s1) (s2 := s2); auto.
    + rewrite L. auto.
    + rewrite L. exact Hf.
  - intros S next s Hb. unfold deser_rgb, rd_bind. specialize (H4 _ _ s Hb).
    destruct (deser_vec d S next s) as [[l| |] s1]; cbn in *; try congruence.
    destruct l as [|r [|g [|b [|]]]]; cbn; congruence.
Qed.
Lemma ser_rgb_ok {A} (P : A -> Prop) fmt (sa : A -> io unit) :
  ser_ok P fmt sa ->
  ser_ok (fun c => Forall P (rgb_list c))
         (fun c => app_opt (Some (le_bytes 8 3)) (concat_opt (map fmt (rgb_list c))))
         (ser_rgb sa).
Proof.
  intros Hs. destruct (ser_slice_ok Hs) as [H1 H2].
  assert (L : forall c : rgb A, length (rgb_list c) = 3%nat) by (intros [[? ?] ?]; reflexivity).
  assert (L3 : u64_ok (N.of_nat 3)) by (unfold u64_ok; lia).
  split.
  - intros c bs HP Hf. apply H1; rewrite L; auto.
  - intros c HP Hf. apply H2; rewrite L; auto.
Qed.

(** ** The universe *)
Lemma deser_ok_equiv {A} (P Q : A -> Prop) f d :
  (forall v, P v <-> Q v) -> deser_ok P f d -> deser_ok Q f d.
Proof.
  intros E [H1 H2 H3 H4]. split.
  - intros v bs Hv. apply H1. now apply E.
  - intros S next s v s' Hb H. destruct (H2 _ _ _ _ _ Hb H) as [Hv Hr]. split; [now apply E|exact Hr].
  - intros v bs p Hv. apply H3. now apply E.
  - exact H4.
Qed.
Lemma ser_ok_equiv {A} (P Q : A -> Prop) f s :
  (forall v, P v <-> Q v) -> ser_ok P f s -> ser_ok Q f s.
Proof. intros E [H1 H2]. split; intros v; intros; [apply H1|apply H2]; auto; now apply E. Qed.

Lemma deser_char_ok :
  deser_ok (fun c => c < 1114112)%N (fun c => if (c <? 256)%N then Some [c] else None) deser_char.
Proof.
  destruct deser_u8_ok as [H1 H2 H3 H4]. split.
  - intros v bs Hv Hf. destruct (N.ltb_spec v 256); [|discriminate]. now apply H1.
  - intros S next s v s' Hb H. destruct (H2 _ _ _ _ _ Hb H) as [Hv [bs [Hf Hy]]].
    unfold u8_ok in Hv. split; [lia|]. exists bs. destruct (N.ltb_spec v 256); [auto|lia].
  - intros v bs p Hv Hf. destruct (N.ltb_spec v 256); [|discriminate]. now apply (H3 v bs p).
  - exact H4.
Qed.
Lemma ser_char_ok :
  ser_ok (fun c => c < 1114112)%N (fun c => if (c <? 256)%N then Some [c] else None) ser_char.
Proof.
  split; intros v; unfold ser_char.
  - intros bs Hv Hf. destruct (N.ltb_spec v 256); [|discriminate]. injection Hf as <-.
    destruct (N.leb_spec v 255); [apply emits_write|lia].
  - intros Hv Hf. destruct (N.ltb_spec v 256); [discriminate|].
    destruct (N.leb_spec v 255); [lia|]. exists []. apply emits_fail.
Qed.

Theorem deser_ty_ok t : deser_ok (wf t) (format t) (deser t).
Proof.
  induction t as [| | | | | | |a IHa b IHb|a IHa|n a IHa|a IHa]; cbn [wf format deser].
  - apply deser_u8_ok.
  - eapply deser_ok_ext; [|apply (@deser_word_ok 2)].
    + intros v Hv. cbv beta. now rewrite le16_eq.
    + intros v. unfold u16_ok. change (256 ^ N.of_nat 2)%N with 65536%N. lia.
  - eapply deser_ok_ext; [|apply deser_i16_ok].
    intros v Hv. destruct (i16_word Hv) as [E H]. cbv beta. rewrite E. now rewrite le16_eq.
  - eapply deser_ok_ext; [|apply (@deser_word_ok 4)].
    + intros v Hv. cbv beta. now rewrite le32_eq.
    + intros v. unfold u32_ok. change (256 ^ N.of_nat 4)%N with 4294967296%N. lia.
  - eapply deser_ok_ext; [|apply deser_u64_ok]. intros v Hv. cbv beta. now rewrite le64_eq.
  - eapply deser_ok_ext; [|apply deser_u64_ok]. intros v Hv. cbv beta. now rewrite le64_eq.
  - apply deser_char_ok.
  - apply deser_pair_ok; assumption.
  - eapply deser_ok_ext; [|apply deser_vec_ok; exact IHa].
    intros l [Hl _]. cbv beta. now rewrite le64_eq.
  - apply deser_array_ok; exact IHa.
  - eapply deser_ok_equiv; [|eapply deser_ok_ext; [|apply deser_rgb_ok; exact IHa]].
    + intros [[r g] b]. cbn. split.
      * intros H. repeat (apply Forall_cons_iff in H as [? H]). auto.
      * intros (? & ? & ?). repeat constructor; assumption.
    + intros [[r g] b] _. reflexivity.
Qed.

Theorem ser_ty_ok t : ser_ok (wf t) (format t) (ser t).
Proof.
  induction t as [| | | | | | |a IHa b IHb|a IHa|n a IHa|a IHa]; cbn [wf format ser].
  - apply (ser_simple_ok u8_ok (fun n => [n])).
  - eapply ser_ok_ext; [|apply (ser_simple_ok u16_ok (le_bytes 2))].
    intros v Hv. cbv beta. now rewrite le16_eq.
  - eapply ser_ok_ext; [|apply (ser_simple_ok i16_ok (fun z => le_bytes 2 (Z.to_N (z mod 65536))))].
    intros v Hv. destruct (i16_word Hv) as [E H]. cbv beta. rewrite E. now rewrite le16_eq.
  - eapply ser_ok_ext; [|apply (ser_simple_ok u32_ok (le_bytes 4))].
    intros v Hv. cbv beta. now rewrite le32_eq.
  - eapply ser_ok_ext; [|apply (ser_simple_ok u64_ok (le_bytes 8))].
    intros v Hv. cbv beta. now rewrite le64_eq.
  - eapply ser_ok_ext; [|apply (ser_simple_ok u64_ok (le_bytes 8))].
    intros v Hv. cbv beta. now rewrite le64_eq.
  - apply ser_char_ok.
  - apply ser_pair_ok; assumption.
  - eapply ser_ok_ext; [|apply ser_slice_ok; exact IHa].
    intros l [Hl _]. cbv beta. now rewrite le64_eq.
  - apply ser_array_ok; exact IHa.
  - eapply ser_ok_equiv; [|eapply ser_ok_ext; [|apply ser_rgb_ok; exact IHa]].
    + intros [[r g] b]. cbn. split.
      * intros H. repeat (apply Forall_cons_iff in H as [? H]). auto.
      * intros (? & ? & ?). repeat constructor; assumption.
    + intros [[r g] b] _. reflexivity.
Qed.

(** ** Streams of values *)
Lemma ss_drain {A} (sa : A -> io unit) extra : forall iter,
  yields (ss_next sa) (mkSS iter extra) extra (mkSS iter []).
Proof.
  induction extra as [|b extra IH]; intros iter; [constructor|].
  econstructor; [|apply IH]. reflexivity.
Qed.

Lemma ss_all {A} (sa : A -> io unit) (fmt : A -> list N) : forall iter,
  (forall x, In x iter -> run_vec (sa x) = Ok (fmt x)) ->
  yields_all (ss_next sa) (ss_from_iter iter) (concat (map fmt iter)).
Proof.
  induction iter as [|x iter IH]; intros H.
  - exists (mkSS [] []), (mkSS [] []). split; [constructor|reflexivity].
  - destruct IH as [s' [s'' [Hy Hn]]]; [intros y Hy; apply H; now right|].
    cbn [map concat]. specialize (H x (or_introl eq_refl)).
    destruct (fmt x) as [|b bs] eqn:E.
    + cbn [app]. (* empty serialization: skipped by the refill loop *)
      assert (Hsame : forall iter', ss_next sa (mkSS (x :: iter') []) = ss_next sa (mkSS iter' [])).
      { intros iter'. unfold ss_next. cbn [ss_extra ss_iter ss_fill]. now rewrite H. }
      inversion Hy as [? E1 E2 E3|s1 z s2 l s3 Hz Hl E1 E2 E3]; subst.
      * exists (mkSS (x :: iter) []), s''. split; [constructor|].
        rewrite Hsame. exact Hn.
      * exists s', s''. split; [|exact Hn]. econstructor; [|exact Hl].
        unfold ss_from_iter. rewrite Hsame. exact Hz.
    + exists s', s''. split; [|exact Hn].
      cbn [app]. econstructor.
      * unfold ss_next, ss_from_iter. cbn [ss_extra ss_iter ss_fill]. rewrite H. reflexivity.
      * cbn [ss_iter]. eapply yields_app; [apply ss_drain|exact Hy].
Qed.

Lemma deser_stream_all {A} (P : A -> Prop) fmt (d : deserializer A) :
  deser_ok P fmt d ->
  (forall v bs, P v -> fmt v = Some bs -> bs <> []) ->
  forall l bs, Forall P l -> concat_opt (map fmt l) = Some bs ->
  forall S (next : nextf S N) s s' s'',
    yields next s bs s' -> next s' = (Err, s'') ->
    (exists v b, P v /\ fmt v = Some b) ->
    yields (deser_stream d next) s l s' /\ fst (deser_stream d next s') = Err.
Proof.
  intros Hd Hne l. induction l as [|x l IH]; intros bs HP Hf S next s s' s'' Hy Hn Hex.
  - cbn in Hf. injection Hf as <-. inversion Hy; subst. split; [constructor|].
    destruct Hex as [v [b [Pv Fv]]].
    unfold deser_stream. rewrite (do_trunc Hd v (bs := b) (p := [])) with (s1 := s') (s2 := s''); auto.
    destruct b as [|c b]; [now apply Hne in Fv|]. exists c, b. reflexivity.
  - cbn [map] in Hf. apply concat_opt_some in Hf as [a [b [Ha [Hb ->]]]].
    apply Forall_cons_iff in HP as [Px Pl]. apply yields_app_inv in Hy as [s1 [Y1 Y2]].
    destruct (IH _ Pl Hb _ _ _ _ _ Y2 Hn Hex) as [H1' H2'].
    split; [|exact H2']. econstructor; [|exact H1'].
    unfold deser_stream. eapply (do_rt Hd); eauto.
Qed.

Lemma ty_inhabited t : exists v b, wf t v /\ format t v = Some b.
Proof.
  induction t as [| | | | | | |a IHa b IHb|a IHa|n a IHa|a IHa].
  - exists 0%N, [0%N]. split; [cbn; unfold u8_ok; lia|reflexivity].
  - exists 0%N, [0;0]%N. split; [cbn; unfold u16_ok; lia|reflexivity].
  - exists 0%Z, [0;0]%N. split; [cbn; unfold i16_ok; lia|reflexivity].
  - exists 0%N, [0;0;0;0]%N. split; [cbn; unfold u32_ok; lia|reflexivity].
  - exists 0%N, [0;0;0;0;0;0;0;0]%N. split; [cbn; unfold u64_ok; lia|reflexivity].
  - exists 0%N, [0;0;0;0;0;0;0;0]%N. split; [cbn; unfold u64_ok; lia|reflexivity].
  - exists 0%N, [0%N]. split; [cbn; lia|reflexivity].
  - destruct IHa as [va [ba [Wa Fa]]], IHb as [vb [bb [Wb Fb]]].
    exists (va, vb), (ba ++ bb). cbn [wf format fst snd]. rewrite Fa, Fb, app_opt_eq. auto.
  - exists [], (le64 0). split; [cbn; split; [unfold u64_ok; lia|constructor]|reflexivity].
  - destruct IHa as [v [b [W F]]]. exists (repeat v n), (concat (repeat b n)). cbn [wf format]. split.
    + split; [apply repeat_length|]. apply Forall_forall. intros x Hx. apply repeat_spec in Hx. now subst.
    + induction n as [|n IHn]; [reflexivity|]. cbn [repeat map concat_opt concat]. now rewrite F, IHn.
  - destruct IHa as [v [b [W F]]]. exists (v, v, v), (le64 3 ++ concat [b; b; b]). cbn [wf format]. split; [auto|].
    rewrite F. cbn [concat_opt concat]. now rewrite app_opt_eq.
Qed.

Lemma stream_of_values t (l : list (val t)) bs :
  Forall (wf t) l -> concat_opt (map (format t) l) = Some bs ->
  yields_all (ss_next (ser t)) (ss_from_iter l) bs.
Proof.
  intros HP Hf.
  assert (E : bs = concat (map (fun v => match format t v with Some b => b | None => [] end) l)
              /\ forall x, In x l -> exists b, format t x = Some b).
  { clear HP. revert bs Hf. induction l as [|x l IH]; intros bs Hf.
    - cbn in Hf. injection Hf as <-. split; [reflexivity|]. intros x [].
    - cbn [map] in Hf. apply concat_opt_some in Hf as [a [b [Ha [Hb ->]]]].
      destruct (IH _ Hb) as [E1 E2]. cbn [map concat]. rewrite Ha, <- E1. split; [reflexivity|].
      intros y [<-|Hy]; eauto. }
  destruct E as [-> Hb]. apply ss_all. intros x Hx. destruct (Hb x Hx) as [b Fb]. rewrite Fb.
  rewrite (emits_run_vec (so_ok (ser_ty_ok t) x (proj1 (Forall_forall _ _) HP x Hx) Fb)). reflexivity.
Qed.

Lemma values_of_stream t (l : list (val t)) bs :
  (forall v, wf t v -> format t v <> Some []) ->
  Forall (wf t) l -> concat_opt (map (format t) l) = Some bs ->
  forall S (next : nextf S N) s, yields_all next s bs ->
  yields_all (deser_stream (deser t) next) s l.
Proof.
  intros Hne HP Hf S next s [s' [s'' [Hy Hn]]].
  destruct (ty_inhabited t) as [v [b [Wv Fv]]].
  destruct (@deser_stream_all _ _ _ _ (deser_ty_ok t)) with (l := l) (bs := bs) (S := S) (next := next)
    (s := s) (s' := s') (s'' := s'') as [H1 H2]; eauto.
  { intros v0 bs0 W F E. subst. exact (Hne _ W F). }
  destruct (deser_stream (deser t) next s') as [r s3] eqn:E. cbn in H2. subst.
  exists s', s3. auto.
Qed.

Lemma stream_panics t (l1 : list (val t)) x l2 bs :
  Forall (wf t) l1 -> concat_opt (map (format t) l1) = Some bs -> wf t x -> format t x = None ->
  exists s' s'', yields (ss_next (ser t)) (ss_from_iter (l1 ++ x :: l2)) bs s'
                 /\ ss_next (ser t) s' = (Panic, s'').
Proof.
  intros HP Hf Wx Fx. destruct (so_err (ser_ty_ok t) _ Wx Fx) as [xb Hx].
  apply emits_run_vec in Hx.
  assert (Hlast : ss_next (ser t) (mkSS (x :: l2) []) = (Panic, mkSS l2 [])).
  { unfold ss_next. cbn [ss_extra ss_iter ss_fill]. now rewrite Hx. }
  revert bs Hf. induction l1 as [|v l1 IH]; intros bs Hf.
  - cbn in Hf. injection Hf as <-. eexists _, _. split; [constructor|]. exact Hlast.
  - cbn [map] in Hf. apply concat_opt_some in Hf as [a [b [Ha [Hb ->]]]].
    apply Forall_cons_iff in HP as [Pv Pl]. destruct (IH Pl _ Hb) as [s' [s'' [Hy Hn]]].
    pose proof (emits_run_vec (so_ok (ser_ty_ok t) v Pv Ha)) as Rv. cbn in Rv.
    destruct a as [|c a].
    + assert (Hsame : forall iter', ss_next (ser t) (mkSS (v :: iter') []) = ss_next (ser t) (mkSS iter' [])).
      { intros iter'. unfold ss_next. cbn [ss_extra ss_iter ss_fill]. now rewrite Rv. }
      cbn [app]. inversion Hy as [? E1 E2 E3|s1 z s2 l s3 Hz Hl E1 E2 E3]; subst.
      * exists (mkSS (v :: l1 ++ x :: l2) []), s''. split; [constructor|]. rewrite Hsame. exact Hn.
      * exists s', s''. split; [|exact Hn]. econstructor; [|exact Hl].
        unfold ss_from_iter. rewrite Hsame. exact Hz.
    + exists s', s''. split; [|exact Hn]. cbn [app]. econstructor.
      * unfold ss_next, ss_from_iter. cbn [ss_extra ss_iter ss_fill]. rewrite Rv. reflexivity.
      * cbn [ss_iter]. eapply yields_app; [apply ss_drain|exact Hy].
Qed.

(** ** The forms used by the property theorems *)
Lemma roundtrip t v bs : wf t v -> format t v = Some bs ->
  run_vec (ser t v) = Ok bs /\
  forall S (next : nextf S N) s s', yields next s bs s' -> deser t S next s = (Ok v, s').
Proof.
  intros W F. split; [|exact (do_rt (deser_ty_ok t) v W F)].
  exact (emits_run_vec (so_ok (ser_ty_ok t) v W F)).
Qed.

Lemma canonical t S (next : nextf S N) s v s' :
  byte_source next s -> deser t S next s = (Ok v, s') ->
  wf t v /\ exists bs, run_vec (ser t v) = Ok bs /\ yields next s bs s'.
Proof.
  intros Hb H. destruct (do_canon (deser_ty_ok t) Hb H) as [W [bs [F Y]]].
  split; [exact W|]. exists bs. split; [|exact Y]. exact (emits_run_vec (so_ok (ser_ty_ok t) v W F)).
Qed.

Lemma truncation t v bs p : wf t v -> run_vec (ser t v) = Ok bs -> strict_prefix p bs ->
  forall S (next : nextf S N) s, yields_all next s p -> fst (deser t S next s) = Err.
Proof.
  intros W R Hp S next s [s1 [s2 [Y Hn]]].
  destruct (format t v) as [b|] eqn:F.
  - rewrite (emits_run_vec (so_ok (ser_ty_ok t) v W F)) in R. injection R as ->.
    now rewrite (do_trunc (deser_ty_ok t) v W F Hp Y Hn).
  - destruct (so_err (ser_ty_ok t) _ W F) as [xb Hx]. apply emits_run_vec in Hx. congruence.
Qed.

Lemma never_panics t S (next : nextf S N) s : byte_source next s -> fst (deser t S next s) <> Panic.
Proof. intros Hb. exact (do_nopanic (deser_ty_ok t) Hb). Qed.

Lemma short_write t v bs k : wf t v -> format t v = Some bs ->
  fst (ser t v (short_writer k)) = (if (length bs <=? k)%nat then Ok tt else Err)
  /\ written (snd (ser t v (short_writer k))) = firstn k bs.
Proof. intros W F. exact (emits_short k (so_ok (ser_ty_ok t) v W F)). Qed.

Lemma bad_char_write t v k : wf t v -> format t v = None ->
  fst (ser t v (short_writer k)) = Err.
Proof.
  intros W F. destruct (so_err (ser_ty_ok t) v W F) as [bs H].
  destruct (emits_short k H) as [H1 _]. rewrite H1. now destruct (length bs <=? k)%nat.
Qed.

Lemma bad_char_alone c w : (255 < c)%N -> ser TChar c w = (Err, w).
Proof. intros H. cbn [ser]. unfold ser_char. destruct (N.leb_spec c 255); [lia|reflexivity]. Qed.

Lemma roundtrip_list t v bs rest : wf t v -> run_vec (ser t v) = Ok bs ->
  deser t _ list_next (bs ++ rest) = (Ok v, rest).
Proof.
  intros W R. destruct (format t v) as [b|] eqn:F.
  - rewrite (emits_run_vec (so_ok (ser_ty_ok t) v W F)) in R. injection R as ->.
    apply (do_rt (deser_ty_ok t) v W F). apply yields_list.
  - destruct (so_err (ser_ty_ok t) _ W F) as [xb Hx]. apply emits_run_vec in Hx. congruence.
Qed.
