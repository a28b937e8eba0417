(** * Small images used as concrete cases. *)
From Verif Require Import Base Ser SerSpec Bit Utils Huf HufSpec HufTop Dict Back Img Float HilbertC CodecSpec CodecHilbert.

Definition px (r g b a : N) : rgba := ((r, g, b), a).
(** 2x2, one transparent pixel *)
Definition pic : img := mkImg 2 2 [px 255 0 0 255; px 255 0 0 128; px 0 0 255 255; px 255 0 0 255]%N.
(** Rows from left to right *)
Definition rows : scanner := row_major.
(** A traversal of 2x2 in the order of a Hilbert curve *)
Definition curve : scanner := fun w h => if ((w =? 2) && (h =? 2))%N then [(0, 0); (0, 1); (1, 1); (1, 0)]%N else row_major w h.
Lemma pic_ok : img_ok pic.
Proof. repeat split; cbn; try lia; unfold u32_ok; try lia. repeat constructor; unfold u8_ok; cbn; lia. Qed.
Lemma curve_visits w h : visits_all w h (curve w h).
Proof.
  unfold curve. destruct (N.eqb_spec w 2), (N.eqb_spec h 2); cbn [andb]; try apply row_major_visits. subst. split.
  - repeat constructor; cbn; intuition congruence.
  - intros x y. cbn. split.
    + intros [E|[E|[E|[E|[]]]]]; injection E as <- <-; lia.
    + intros [Hx Hy]. assert (x = 0 \/ x = 1)%N as [-> | ->] by lia; assert (y = 0 \/ y = 1)%N as [-> | ->] by lia; auto 10.
Qed.

(** Reds that each stay within 40 of the mean of the previous ones *)
Fixpoint creep (n : nat) (l : list N) : list N :=
  match n with
  | O => l
  | S n => creep n (l ++ [N.min 255 (fold_right N.add 0 l / N.of_nat (length l) + 40)])%N
  end.
Definition creeping : img := mkImg 255 1 (map (fun r => px r 0 0 255) (creep 254 [0%N])).
Lemma creeping_ok : img_ok creeping.
Proof.
  assert (H : forallb (fun p : rgba => let '(r, g, b, a) := p in (r <? 256) && (g <? 256) && (b <? 256) && (a <? 256))%N (im_px creeping) = true)
    by (vm_compute; reflexivity).
  split; [|split; [|split; [|split]]]; try (vm_compute; reflexivity).
  rewrite forallb_forall in H. apply Forall_forall. intros [[[r g] b] a] Hp. specialize (H _ Hp). cbv beta iota in H.
  apply andb_prop in H as [H Ha]. apply andb_prop in H as [H Hb]. apply andb_prop in H as [Hr Hg].
  apply N.ltb_lt in Hr, Hg, Hb, Ha. repeat split; assumption.
Qed.

Lemma error_exceeds : exists im scan d out im' x y c c',
  img_ok im /\ visits_all (im_w im) (im_h im) (scan (im_w im) (im_h im))
  /\ run_vec (hilbert_encode scan 256 (RLE (f64_of_N d)) im) = Ok out
  /\ hilbert_decode scan 2 (RLE (f64_of_N d)) list_next out = Ok im'
  /\ get_pixel im (x, y) = Ok c /\ get_pixel im' (x, y) = Ok c'
  /\ (sq_dist (fst c) (fst c') > (5 * Z.of_N d) ^ 2)%Z.
Proof.
  exists creeping, rows, 40%N, (dims creeping ++ run_bytes (255, (203, 0, 0)))%N, (mkImg 255 1 (repeat (px 203 0 0 255) 255)),
    0%N, 0%N, (px 0 0 0 255), (px 203 0 0 255).
  split; [exact creeping_ok|]. split; [apply row_major_visits|]. repeat split; vm_compute; reflexivity.
Qed.
Lemma cut_aborts : exists im scan, img_ok im /\ visits_all (im_w im) (im_h im) (scan (im_w im) (im_h im))
  /\ (exists out p, run_vec (hilbert_encode scan 100 (RLE (f64_of_N 0)) im) = Ok out /\ strict_prefix p out /\ (8 <= length p)%nat
      /\ hilbert_decode scan 2 (RLE (f64_of_N 0)) list_next p = Panic)
  /\ (exists out p, run_vec (hilbert_encode scan 100 MZip im) = Ok out /\ strict_prefix p out /\ (8 <= length p)%nat
      /\ hilbert_decode scan 2 MZip list_next p = Panic).
Proof.
  assert (P : forall (l : list N) k, (k < length l)%nat -> strict_prefix (firstn k l) l).
  { intros l k Hk. destruct (skipn k l) as [|y r] eqn:E.
    - exfalso. apply (f_equal (@length _)) in E. rewrite skipn_length in E. cbn in E. lia.
    - exists y, r. rewrite <- E. symmetry. apply firstn_skipn. }
  assert (G : forall m k, (k < length (match run_vec (hilbert_encode curve 100 m pic) with Ok o => o | _ => [] end))%nat ->
    hilbert_decode curve 2 m list_next (firstn k (match run_vec (hilbert_encode curve 100 m pic) with Ok o => o | _ => [] end)) = Panic ->
    (8 <= k)%nat ->
    exists out p, run_vec (hilbert_encode curve 100 m pic) = Ok out /\ strict_prefix p out /\ (8 <= length p)%nat
      /\ hilbert_decode curve 2 m list_next p = Panic).
  { intros m k. destruct (run_vec _) as [o| |]; try (cbn; lia). intros Hk Hd H8. exists o, (firstn k o).
    split; [reflexivity|]. split; [apply P, Hk|]. split; [rewrite firstn_length; lia|exact Hd]. }
  exists pic, curve. split; [exact pic_ok|]. split; [apply curve_visits|]. split.
  - apply (G _ 33%nat); [apply Nat.ltb_lt; vm_compute; reflexivity|vm_compute; reflexivity|lia].
  - apply (G _ 11%nat); [apply Nat.ltb_lt; vm_compute; reflexivity|vm_compute; reflexivity|lia].
Qed.

Lemma small_not_largest : exists im scan, img_ok im /\ im_w im = im_h im
  /\ (forall s, (s < 2 ^ 32)%N -> visits_all s s (scan s s))
  /\ forall p, exists l, linearize_small p scan im = Ok l /\ (length l < length (im_px im))%nat.
Proof.
  exists pic, rows. split; [exact pic_ok|]. split; [reflexivity|]. split; [intros s _; apply row_major_visits|].
  intros p. exists [px 255 0 0 255]. split; [destruct p; vm_compute; reflexivity|cbn; lia].
Qed.
