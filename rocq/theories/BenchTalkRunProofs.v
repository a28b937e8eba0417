(** * Proofs about what is printed in a run of the benchmark (C94) *)
From Verif Require Import Base Prs Img Float HilbertC Select Bench BenchSpec BenchPar CodecSpec CodecBytes CodecZip Special BenchDisk BenchDiskProofs BenchDiskTop BackSpec BackSays BackSaysSpec BackSaysProofs BackSaysTop DictSays BenchSays BenchSaysSpec BenchSaysProofs BenchSaysTop BenchSaysCases
  CodecSays CodecSaysSpec CodecSaysProofs BenchTalk BenchTalkRun BenchTalkSpec BenchTalkProofs.
From Coq Require Import Permutation ZifyBool ZifyNat ZifyN.

(** ** Leaving out the lines of the codecs *)
Lemma our_app a b : our_pieces (a ++ b) = our_pieces a ++ our_pieces b.
Proof. apply flat_map_app. Qed.
Lemma our_split l : our_pieces (pieces l) = ours [l].
Proof. destruct l as [l|[l|[|st]|l|l|l]]; reflexivity. Qed.
Lemma our_all ls : our_pieces (flat_map pieces ls) = ours ls.
Proof. induction ls as [|l ls IH]; [reflexivity|]. cbn [flat_map]. rewrite our_app, IH, our_split. symmetry. apply (ours_app [l] ls). Qed.
Lemma upd_map {A B} (f : A -> B) x : forall l i, map f (upd i x l) = upd i (f x) (map f l).
Proof. induction l as [|y l IH]; intros [|i]; cbn; try reflexivity. now rewrite IH. Qed.
Lemma upd_id {A} : forall (l : list A) i x, nth_error l i = Some x -> upd i x l = l.
Proof. induction l as [|y l IH]; intros [|i] x H; try discriminate H; cbn in *; [congruence|]. now rewrite IH. Qed.
Lemma shuffle_ours ls log : shuffle ls log -> shuffle (map our_pieces ls) (our_pieces log).
Proof.
  induction 1 as [ls F|i x l ls rest Hi _ IH].
  - constructor. apply Forall_map. eapply Forall_impl; [|exact F]. intros a ->. reflexivity.
  - rewrite upd_map in IH. pose proof (map_nth_error our_pieces _ _ Hi) as Hm.
    destruct x as [[b|b]|k st]; cbn [our_pieces flat_map app] in *.
    + exact (shuffle_cons i b _ _ _ Hm IH).
    + rewrite upd_id in IH by exact Hm. exact IH.
    + rewrite upd_id in IH by exact Hm. exact IH.
Qed.
Lemma snd_our jobs : map snd (map our_job jobs) = map snd jobs.
Proof. rewrite map_map. reflexivity. Qed.
Lemma lines_our : forall jobs ts, all_lines (map our_job jobs) ts = map our_pieces (all_pieces jobs ts).
Proof.
  induction jobs as [|j jobs IH]; intros [|t ts]; try reflexivity. unfold all_lines, all_pieces in *. cbn [map combine fst snd]. rewrite IH, our_all. f_equal.
  unfold task_lines, talk_lines, our_job. cbn [fst snd]. destruct t, (snd j); try reflexivity. now rewrite ours_app.
Qed.
Lemma talk_run_ours jobs creates flushes r out lost log : talk_run jobs creates flushes r out lost log ->
  loud_run (map our_job jobs) creates flushes r out lost (our_pieces log).
Proof.
  intros H. destruct H as [flushes|flushes s log St F Sh]; [constructor|]. constructor; rewrite ?snd_our; [exact St|exact F|].
  rewrite lines_our. now apply shuffle_ours.
Qed.
Lemma talk_run_any jobs creates flushes r out lost :
  table_run (map snd jobs) creates flushes r out lost <-> exists log, talk_run jobs creates flushes r out lost log.
Proof.
  split.
  - intros H. destruct H as [flushes|flushes s H F]; [exists []; constructor|]. eexists. constructor; [exact H|exact F|apply shuffle_concat].
  - intros [log H]. apply talk_run_ours in H. apply loud_table in H. now rewrite snd_our in H.
Qed.
Lemma talking_tasks p zero E E' nodes c opens saves paths jobs : talking p zero E E' nodes c opens saves paths jobs ->
  (forall path im, In path paths -> opens path = inl im -> img_ok im /\ env_ok (E path) im /\ talk_ok (E path) nodes c im) ->
  tasks p zero (fun q => any (E q) (E' q) c) opens saves paths (map our_job jobs).
Proof.
  unfold talking, tasks. induction 1 as [|path j paths jobs H _ IH]; intros Hp; cbn [map]; constructor.
  - pose proof (talk_erased p zero (E path) (E' path) nodes c path (opens path) (saves path) (fun im Ho => Hp path im (or_introl eq_refl) Ho)) as T.
    rewrite H in T. exact T.
  - apply IH. intros q im Hq. apply Hp. now right.
Qed.

(** ** The lines of one task *)
Lemma talk_run_order jobs flushes r out lost log : talk_run jobs true flushes r out lost log -> forall i j, nth_error jobs i = Some j ->
  exists ls, subsequence (flat_map pieces ls) log
  /\ (ls = fst j \/ (exists rc, snd j = Ok rc /\ In rc lost) /\ ls = fst j ++ [Ours (Failure NoWrite)] \/ In Panic (map snd jobs) /\ ls = []).
Proof.
  intros H i j Hj. inversion H as [|fl s lg St F Sh]; subst. pose proof (d_reachable _ _ St) as I.
  assert (Hj' : nth_error (map snd jobs) i = Some (snd j)) by now apply map_nth_error.
  destruct (nth_error (b_tasks (d_bench s)) i) as [t|] eqn:Ht.
  2: { apply nth_error_None in Ht. pose proof (di_len _ _ _ I). pose proof (proj1 (nth_error_Some (map snd jobs) i) ltac:(congruence)). lia. }
  exists (talk_lines j t). split.
  - eapply shuffle_sub; [exact Sh|]. unfold all_pieces. exact (map_nth_error (fun e => flat_map pieces (talk_lines (fst e) (snd e))) _ _ (nth_combine _ _ _ _ _ Hj Ht)).
  - destruct j as [ls j]. pose proof (di_agree _ _ _ I _ _ _ Ht Hj') as A. unfold talk_lines. cbn [fst snd] in *. destruct t; try (left; reflexivity).
    + destruct j as [rc| |]; [|now left|now left]. right. left. split; [|reflexivity]. exists rc. split; [reflexivity|].
      eapply Permutation_in; [symmetry; exact (di_lost _ _ _ I)|]. clear - Ht Hj'. revert i Ht Hj'. generalize (map snd jobs) as js, (b_tasks (d_bench s)) as ts.
      induction js as [|j js IH]; intros [|t ts] [|i] Ht Hj; try discriminate; cbn in *; [injection Ht as ->; injection Hj as ->; now left|]. apply in_or_app. right. now apply (IH _ i).
    + right. right. split; [|reflexivity]. cbn in A. apply (d_crash _ _ I F). apply existsb_exists. now exists Crashed.
Qed.
Lemma talk_run_lines jobs creates flushes r out lost log : talk_run jobs creates flushes r out lost log -> forall x, In x log ->
  (exists j l, In j jobs /\ In l (fst j) /\ In x (pieces l)) \/ x = Whole (Ours (Failure NoWrite)) /\ lost <> [].
Proof.
  intros H x Hx.
  assert (D : (exists b, x = Whole (Ours b)) \/ forall b, x <> Whole (Ours b)).
  { destruct x as [[b|b]|k st]; [left; now exists b|right; discriminate|right; discriminate]. }
  destruct D as [[b ->]|D].
  - destruct (run_lines _ _ _ _ _ _ _ (talk_run_ours _ _ _ _ _ _ _ H) b) as [(j & Hj & Hb)|[-> L]].
    + apply in_flat_map. exists (Whole (Ours b)). split; [exact Hx|now left].
    + left. apply in_map_iff in Hj as (j' & <- & Hj). cbn [our_job fst] in Hb. apply in_flat_map in Hb as (l & Hl & Hb).
      destruct l as [l|l]; [|destruct Hb]. destruct Hb as [->|[]]. exists j', (Ours b). split; [exact Hj|]. split; [exact Hl|now left].
    + right. auto.
  - left. inversion H as [|fl s lg St F Sh]; subst; [destruct Hx|].
    apply (Permutation_in _ (shuffle_perm _ _ Sh)) in Hx. apply in_concat in Hx as (ls & Hls & Hx). unfold all_pieces in Hls. apply in_map_iff in Hls as ((j & t) & <- & Hc).
    apply in_flat_map in Hx as (l & Hl & Hx). exists j, l. split; [exact (in_combine_l _ _ _ _ Hc)|]. split; [|exact Hx].
    cbn [fst snd] in Hl. unfold talk_lines in Hl. destruct t; try exact Hl; [|destruct Hl].
    destruct (snd j); try exact Hl. apply in_app_or in Hl as [Hl|[<-|[]]]; [exact Hl|]. destruct Hx as [<-|[]]. now destruct (D (Failure NoWrite)).
Qed.

(** ** zip(back) does not end its line *)
Lemma literal_ends lits : lits <> [] -> exists m, literal_marks lits = [m] /\ is_announcement m = true.
Proof. destruct lits; [easy|]. intros _. eexists. split; reflexivity. Qed.
Lemma told_ends R h lits rest o : (0 < R)%N -> told R h lits rest o -> lits ++ rest <> [] -> exists o' m, o = o' ++ [m] /\ is_announcement m = true.
Proof.
  intros HR. induction 1 as [h lits rest len back o more B F T IH|h lits rest more N G T IH|h lits rest N G]; intros Ne.
  - destruct (skipn (N.to_nat len) rest) as [|x r] eqn:Es.
    + apply (told_end HR) in T. subst more. exists (o ++ literal_marks lits), (Rep len). split; [now rewrite <- app_assoc|reflexivity].
    + destruct IH as (o' & m & -> & Hm); [discriminate|]. exists (o ++ literal_marks lits ++ Rep len :: o'), m. split; [|exact Hm].
      rewrite <- !app_assoc. reflexivity.
  - destruct IH as (o' & m & -> & Hm).
    + intros E. rewrite <- app_assoc, firstn_skipn in E. exact (Ne E).
    + exists (missed_marks rest ++ o'), m. split; [now rewrite app_assoc|exact Hm].
  - destruct (literal_ends _ Ne) as (m & -> & Hm). now exists (missed_marks rest), m.
Qed.
Lemma open_line m : is_announcement m = true -> forall t, mark_text m <> t ++ [10%N].
Proof.
  intros H t E. destruct m; try discriminate H; cbn [mark_text] in E; rewrite ?app_assoc in E; apply app_inj_tail in E as [_ E]; discriminate E.
Qed.
Lemma back_ends E nodes im w' : img_ok im -> env_ok E im -> snd (encode_says E nodes (Zip ZBack) im vec_writer) = Some (Ok tt, w') ->
  exists o m, fst (encode_says E nodes (Zip ZBack) im vec_writer) = map FromBack (o ++ [m]) /\ is_announcement m = true.
Proof.
  intros Hi [_ _ _ _ O5 _ O7]. pose proof (zip_input_len im Hi) as ZL. cbn [encode_says]. rewrite erase_runs, out_runs. intros H. injection H as H. rewrite back_says_same in H.
  pose proof (back_says_vec _ zip_bytes_next (zip_bytes im) (zip_input im) (e_profile E) (e_caps E) (e_fuel E) (zip_bytes_deliver im Hi) O5) as B.
  cbv zeta in B. unfold run_vec in B. rewrite H in B. unfold BenchSpec.pixels in *. specialize (B ltac:(lia)). destruct B as (T & _).
  apply told_ends in T; [|reflexivity|].
  - destruct T as (o & m & -> & Hm). now exists o, m.
  - cbn [app]. intros E0. rewrite E0 in ZL. change (N.of_nat (length (@nil N))) with 0%N in ZL. lia.
Qed.
Lemma talk_glued p zero E E' nodes path im saves said r : img_ok im -> env_ok E im ->
  measure_talk p zero E E' nodes (Zip ZBack) path (inl im) saves = (said, Some (Ok r)) ->
  exists a m size b, said = a ++ [Codecs (FromBack m); Ours (CompressedSize size)] ++ b /\ forall t, mark_text m <> t ++ [10%N].
Proof.
  intros Hi He H. unfold measure_talk in H. pose proof (back_ends E nodes im) as HB.
  destruct (encode_says E nodes (Zip ZBack) im vec_writer) as [o1 [[[[]| |] w1]|]]; cbn [option_map gathered fst snd] in *; try discriminate H.
  destruct (HB w1 Hi He eq_refl) as (o & m & -> & Hm). rewrite !map_app in H.
  assert (G : exists b, said = Ours (Processing path) :: map Codecs (map FromBack o) ++ [Codecs (FromBack m); Ours (CompressedSize (N.of_nat (length (written w1))))] ++ b).
  { cbn [map app] in H. destruct (raw_size p im) as [raw| |]; [|discriminate H|discriminate H].
    destruct (decode_says E' (Zip ZBack) (written w1)) as [o2 [[y| |]|]]; try discriminate H.
    destruct (compute_error p zero im y) as [err| |]; try discriminate H.
    destruct (negb (feq err (f64_of_N 0))).
    - destruct (under_output path _) as [file| |]; try discriminate H. destruct (negb saves); [discriminate H|]. cbn [any_is_lossless] in H. discriminate H.
    - injection H as <- _. exists ([Ours (RawSize raw)] ++ map Codecs o2). cbn [app]. now rewrite <- !app_assoc. }
  destruct G as [b ->]. exists (Ours (Processing path) :: map Codecs (map FromBack o)), m. do 2 eexists. split; [reflexivity|]. now apply open_line.
Qed.
Lemma sub_app {A} (a b c : list A) : subsequence b c -> subsequence b (a ++ c).
Proof. intros H. induction a as [|x a IH]; [exact H|]. now constructor. Qed.
Lemma sub_front {A} (b c : list A) : subsequence b (b ++ c).
Proof. induction b as [|x b IH]; [apply sub_nil_l|]. now constructor. Qed.
Lemma sub_trans {A} (b c : list A) : subsequence b c -> forall a, subsequence a b -> subsequence a c.
Proof.
  induction 1 as [|x b c H IH|x b c H IH]; intros a Ha; [exact Ha| |constructor; now apply IH].
  inversion Ha; subst; constructor; now apply IH.
Qed.
(** Statistics are printed as a whole, although other lines may come between. *)
Lemma talk_run_statistics jobs creates flushes r out lost log k st : talk_run jobs creates flushes r out lost log -> In (Statistic k st) log ->
  (k < 8)%nat /\ subsequence (map (fun i => Statistic i st) [0; 1; 2; 3; 4; 5; 6; 7]%nat) log.
Proof.
  intros H Hx. inversion H as [|fl s lg St F Sh]; subst; [destruct Hx|].
  apply (Permutation_in _ (shuffle_perm _ _ Sh)) in Hx. apply in_concat in Hx as (ls & Hls & Hx). apply In_nth_error in Hls as (i & Hi).
  pose proof (shuffle_sub _ _ Sh i ls Hi) as Q. unfold all_pieces in Hi. apply nth_error_In, in_map_iff in Hi as ((j & t) & <- & _).
  apply in_flat_map in Hx as (l & Hl & Hx). apply in_split in Hl as (l1 & l2 & El). cbn [fst snd] in *.
  assert (E : l = Codecs (FromDict (TrieStats st)) /\ (k < 8)%nat).
  { destruct l as [b|[d|d|d|d|d]]; try (destruct Hx as [Hx|[]]; discriminate Hx). all: destruct d; try (destruct Hx as [Hx|[]]; discriminate Hx).
    all: cbn [pieces] in Hx; apply in_map_iff in Hx as (k' & Hk & Hs); injection Hk as -> ->; apply in_seq in Hs; split; [reflexivity|lia]. }
  destruct E as [-> Hk]. split; [exact Hk|]. eapply sub_trans; [exact Q|]. rewrite El, flat_map_app. apply sub_app. cbn [flat_map]. apply (sub_front (pieces (Codecs (FromDict (TrieStats st))))).
Qed.
