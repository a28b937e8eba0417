(** * Property C70: image encoders on outputs that fail. *)
From Verif Require Import Base Ser Float Img HilbertC CodecSpec CodecCases ClusterC Prs Select Bench Writers WriterProofs PropsBench.

(** C70: the output accepts only [k] bytes *)
Theorem C70_cut_output : forall E c im m data, any_write E c im = Some m -> run_vec m = Ok data -> forall k, let r := m (short_writer k) in
  ((length data <= k)%nat -> fst r = Ok tt /\ written (snd r) = data)
  /\ ((k < length data)%nat -> (fst r = Err \/ huffman_based c = true /\ fst r = Panic) /\ written (snd r) = firstn k data).
Proof. exact cut_output. Qed.
Print Assumptions C70_cut_output.
(** The data are those of the benchmark. *)
Theorem C70_same_data : forall E c im, any_encode E c im = option_map (fun m => run_vec m) (any_write E c im).
Proof. exact any_write_run. Qed.
Print Assumptions C70_same_data.
(** The output cannot be flushed: only the Huffman-based codecs notice. *)
Theorem C70_no_flush : forall E c im m data, any_write E c im = Some m -> run_vec m = Ok data ->
  written (snd (m unflushable)) = data /\ fst (m unflushable) = (if huffman_based c then Err else Ok tt).
Proof. exact no_flush. Qed.
Print Assumptions C70_no_flush.
(** "Every error of the output is returned": three Huffman-based codecs abort instead. *)
Theorem C70_error_returned_refuted : forall c, In c [Hufman; Delta; ClusterColors 2] ->
  exists E im m k, img_ok im /\ any_write E c im = Some m /\ (exists data, run_vec m = Ok data) /\ fst (m (short_writer k)) = Panic.
Proof. exact error_aborts. Qed.
Print Assumptions C70_error_returned_refuted.
Example C70_case : forall c, In c all_lossless -> exists m data, any_write env1 c pic = Some m /\ run_vec m = Ok data /\ (8 < length data)%nat /\ fst (m (short_writer 5)) = Err.
Proof.
  intros c H. unfold all_lossless in H. cbn [In] in H. repeat (destruct H as [<-|H]; [eexists; eexists; split; [reflexivity|]; split; [vm_compute; reflexivity|]; split; [vm_compute; lia|vm_compute; reflexivity]|]). destruct H.
Qed.
