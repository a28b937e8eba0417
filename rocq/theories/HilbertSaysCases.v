(** * Instances for C91 *)
From Coq Require Import String.
From Verif Require Import Base Ser SerSpec Bit BitSpec Utils Huf HufSpec Dict Img Float HilbertC CodecSpec CodecCases ClusterSpec AcceptSpec AcceptCases Prs Says HilbertSays HilbertSaysSpec HilbertSaysProofs.
From Coq Require Import ZifyBool ZifyNat ZifyN.
Close Scope string_scope.
Open Scope list_scope.

(** 520 pixels of one colour, then one of another, then 299 that alternate between two near ones *)
Definition long_runs : img := mkImg 410 2 (repeat ((1, 2, 3), 255)%N 520 ++ ((9, 9, 9), 7)%N :: concat (repeat [((200, 0, 0), 255); ((201, 0, 0), 255)]%N 149) ++ [((200, 0, 0), 255)]%N).
Lemma long_runs_ok : img_ok long_runs.
Proof.
  split; [cbn [long_runs im_w]; unfold u32_ok; lia|]. split; [cbn [long_runs im_h]; unfold u32_ok; lia|].
  split; [cbn [long_runs im_w im_h]; lia|]. split; [vm_compute; reflexivity|].
  apply Forall_forall. intros p Hp. assert (E : forallb (fun p : rgba => let '((r, g, b), a) := p in (r <? 256) && (g <? 256) && (b <? 256) && (a <? 256))%N (im_px long_runs) = true) by (vm_compute; reflexivity).
    rewrite forallb_forall in E. specialize (E p Hp). destruct p as [[[r g] b] a].
    rewrite !Bool.andb_true_iff, !N.ltb_lt in E. unfold rgba_ok, rgb_ok, u8_ok. cbn [fst snd]. tauto.
Qed.
Lemma rle_says_case : img_ok long_runs /\ Forall (inside (im_w long_runs) (im_h long_runs)) (rows (im_w long_runs) (im_h long_runs))
  /\ fst (hilbert_says rows 900 (RLE (f64_of_N 0)) long_runs vec_writer) = [UsingExact; MaxReached 255; MaxReached 255]%N
  /\ fst (hilbert_says rows 900 (RLE (f64_of_N 2)) long_runs vec_writer) = [UsingApprox; MaxReached 255; MaxReached 255; MaxReached 255]%N
  /\ fst (hilbert_says rows 900 (RLE (f64_of_N 0)) long_runs (short_writer 20)) = [UsingExact; MaxReached 255; MaxReached 255]%N
  /\ fst (hilbert_says rows 900 (RLE (f64_of_N 0)) long_runs (short_writer 19)) = [UsingExact; MaxReached 255]%N
  /\ fst (hilbert_says rows 900 (RLE (f64_of_N 0)) long_runs (short_writer 7)) = []
  /\ map notice_text [UsingApprox; MaxReached 255]%N = [txt "RLE: using approx"; txt "Max number of repetitions reached: 255"].
Proof.
  split; [exact long_runs_ok|]. split.
  - apply Forall_forall. intros [x y] H. unfold inside. cbn [fst snd]. now apply CodecHilbert.in_row_major.
  - repeat split; vm_compute; reflexivity.
Qed.
Lemma hufman_says_case : too_few (firstn 46 huf_data)
  /\ hufman_says 60 list_next (firstn 46 huf_data) = ([SymbolFailed; StreamEnded], Some Err)
  /\ fst (hufman_says 60 list_next huf_data) = []
  /\ hufman_says 60 list_next (firstn 30 huf_data) = ([], Some Err).
Proof.
  assert (E : hufman_says 60 list_next (firstn 46 huf_data) = ([SymbolFailed; StreamEnded], Some Err)) by (vm_compute; reflexivity).
  split; [|split; [exact E|split; vm_compute; reflexivity]].
  assert (HF : Forall u8_ok (firstn 46 huf_data)).
  { apply Forall_forall. intros x Hx. assert (E2 : forallb (fun n => n <? 256)%N (firstn 46 huf_data) = true) by (vm_compute; reflexivity).
    rewrite forallb_forall in E2. specialize (E2 x Hx). apply N.ltb_lt in E2. exact E2. }
  assert (HL : (length (firstn 46 huf_data) < 60)%nat) by (vm_compute; lia).
  destruct (hufman_notices _ _ HF HL) as [[_ H]|[H _]]; [exact H|].
  rewrite E in H. discriminate H.
Qed.
