(** * The messages of whole runs of the benchmark. *)
From Coq Require Import String Permutation Sorted Lia.
From Flocq Require Import BinarySingleNaN.
From Verif Require Import Base Prs Float Img HilbertC CodecSpec Select Bench BenchSpec BenchPar BenchTop BenchLossless Special Images ImagesSpec BenchDisk BenchDiskProofs Program ProgramSpec ProgramProofs BenchSays BenchSaysSpec BenchSaysProofs.
Close Scope string_scope.
Open Scope list_scope.

Lemma loud_table jobs creates flushes r out lost log : loud_run jobs creates flushes r out lost log -> table_run (map snd jobs) creates flushes r out lost.
Proof. intros H. destruct H as [flushes|flushes s log H F _]; now constructor. Qed.

(** ** Parts of the output *)
Lemma processed_app : forall a b, processed (a ++ b) = processed a ++ processed b.
Proof. induction a as [|l a IH]; intros b; [reflexivity|]. destruct l; cbn; rewrite ?IH; reflexivity. Qed.
Lemma failures_app : forall a b, failures (a ++ b) = failures a ++ failures b.
Proof. induction a as [|l a IH]; intros b; [reflexivity|]. destruct l; cbn; rewrite ?IH; reflexivity. Qed.
Lemma processed_perm a b : Permutation a b -> Permutation (processed a) (processed b).
Proof.
  induction 1 as [|x a b _ IH|x y a|a b d _ IH _ IH']; [constructor| | |now transitivity (processed b)].
  - destruct x; cbn; try constructor; exact IH.
  - destruct x, y; cbn; try reflexivity. constructor.
Qed.
Lemma failures_perm a b : Permutation a b -> Permutation (failures a) (failures b).
Proof.
  induction 1 as [|x a b _ IH|x y a|a b d _ IH _ IH']; [constructor| | |now transitivity (failures b)].
  - destruct x; cbn; try constructor; exact IH.
  - destruct x, y; cbn; try reflexivity. constructor.
Qed.
Lemma records_rows l : records (map Row l) = l.
Proof. induction l as [|r l IH]; cbn; [reflexivity|now rewrite IH]. Qed.
Lemma records_table l : records (Header :: map Row l) = l.
Proof. apply records_rows. Qed.

Lemma one_parts p zero c path o saves ls r : measure_says p zero c path o saves = Some (ls, r) ->
  processed ls = [path]
  /\ match r with
     | Err => exists f, failures ls = [f] /\ reason p zero c path o saves f
     | Ok rc => failures ls = [] /\ rec_name rc = path
     | Panic => failures ls = []
     end.
Proof.
  intros H. pose proof (all_facts _ _ _ _ _ _ _ _ H) as A.
  assert (G : forall f, In (Failure f) ls -> reason p zero c path o saves f) by (intros f; apply (one_failure _ _ _ _ _ _ _ _ _ A)).
  assert (Rn : forall rc, r = Ok rc -> rec_name rc = path).
  { intros rc ->. destruct (outcome_one _ _ _ _ _ _ _ _ H) as [E|[_ D]]; [|discriminate D]. unfold measure_one in E.
    destruct (the_image o) as [im|]; [|discriminate E]. destruct (enc c im) as [[data| |]|]; try discriminate E. destruct (raw_size p im); try discriminate E.
    destruct (dec c data) as [[y| |]|]; try discriminate E. destruct (compute_error p zero im y); try discriminate E.
    destruct (negb _); [destruct (negb saves); [discriminate E|]; destruct (lossless c); [discriminate E|]|]; injection E as <-; reflexivity. }
  unfold facts in A. destruct A as
    [(e & Ho & -> & ->)|(im & Ho & [(En & -> & ->)|[(En & -> & ->)|(data & En & [(NS & -> & ->)|(S & [(De & -> & ->)|[(De & -> & ->)|(y & e & De & Er &
      [(Z & -> & rc & ->)|(Z & [(U & -> & ->)|(file & U & [(Sv & -> & ->)|[(Sv & Ls & -> & ->)|(Sv & Ls & -> & rc & ->)]])])])]])])]])];
  cbn [app] in *; (split; [reflexivity|]); cbn [failures]; try reflexivity; try (split; [reflexivity|now apply Rn]); (eexists; split; [reflexivity|apply G; cbn [In]; auto 8]).
Qed.

(** ** Runs without a panic *)
Lemma forall2_weaken {A B} (P Q : A -> B -> Prop) : (forall a b, P a b -> Q a b) -> forall l l', Forall2 P l l' -> Forall2 Q l l'.
Proof. intros H. induction 1; constructor; auto. Qed.
Lemma forall2_length {A B} (P : A -> B -> Prop) l l' : Forall2 P l l' -> length l = length l'.
Proof. induction 1; cbn; congruence. Qed.
Section Run.
  Variables (p : profile) (zero : f64) (c : text -> codec) (opens : text -> opened) (saves : text -> bool).
  Notation reason q := (reason p zero (c q) q (opens q) (saves q)).

  Definition settled (j : res record) (t : tstate) : Prop := match t with Done => exists r, j = Ok r | Failed => j <> Panic | _ => False end.
  Lemma all_settled jobs s : dsteps jobs (d_init jobs) s -> Forall ended (b_tasks (d_bench s)) -> ~ In Panic jobs -> Forall2 settled jobs (b_tasks (d_bench s)).
  Proof.
    intros H F NP. pose proof (d_reachable _ _ H) as I. pose proof (d_crash _ _ I F) as C.
    assert (NC : ~ In Crashed (b_tasks (d_bench s))) by (intros X; apply NP, C, existsb_exists; now exists Crashed).
    pose proof (di_len _ _ _ I) as L. pose proof (di_agree _ _ _ I) as A. clear I C H. set (ts := b_tasks (d_bench s)) in *. clearbody ts.
    assert (G : forall i t j, nth_error ts i = Some t -> nth_error jobs i = Some j -> settled j t).
    { intros i t j Ht Hj. specialize (A i t j Ht Hj). pose proof (proj1 (Forall_forall _ _) F t (nth_error_In _ _ Ht)) as En.
      destruct t; cbn in A, En |- *; try contradiction; eauto. apply NC. now apply nth_error_In with i. }
    clear - L G. revert ts L G. induction jobs as [|j jobs IH]; intros [|t ts] L G; try discriminate L; [constructor|].
    constructor; [now apply (G 0%nat)|]. injection L as L. apply IH; [exact L|]. intros i t' j' Ht Hj. now apply (G (S i)).
  Qed.

  Lemma run_parts : forall paths jobs, tasks p zero c opens saves paths jobs -> forall ts, Forall2 settled (map snd jobs) ts ->
    let log := concat (all_lines jobs ts) in
    processed log = paths
    /\ exists missing, Permutation (map rec_name (pick wrote ts (map snd jobs)) ++ missing) paths
       /\ Forall2 (fun q f => reason q f \/ f = NoWrite /\ In q (map rec_name (pick failed ts (map snd jobs)))) missing (failures log).
  Proof.
    induction 1 as [|path [ls j] paths jobs H _ IH]; intros ts F; inversion F as [|? t ? ts' St F']; subst; [cbn; split; [reflexivity|]; exists []; now split|].
    specialize (IH _ F') as (P & missing & M & D). cbn [snd map] in *. unfold all_lines in *. cbn [combine map concat fst snd pick] in *.
    rewrite processed_app, failures_app, P. apply one_parts in H as (Pr & Fl).
    assert (D' : forall l, Forall2 (fun q f => reason q f \/ f = NoWrite /\ In q (map rec_name (l ++ pick failed ts' (map snd jobs)))) missing
      (failures (concat (map (fun e => task_lines (fst e) (snd e)) (combine jobs ts'))))).
    { intros l. eapply forall2_weaken; [|exact D]. cbn beta. intros q f [R|[-> R]]; [now left|]. right. split; [reflexivity|]. rewrite map_app. apply in_or_app. now right. }
    destruct t; cbn [settled] in St; try contradiction.
    - destruct St as [r ->]. destruct Fl as [Fl Nm]. cbn [task_lines snd fst]. rewrite Pr, Fl. split; [reflexivity|]. exists missing. split; [|apply D'].
      cbn [pick1 wrote map app]. rewrite Nm. now constructor.
    - destruct j as [r| |]; [| |now destruct St].
      + destruct Fl as [Fl Nm]. cbn [task_lines snd fst]. rewrite processed_app, failures_app, Pr, Fl. split; [reflexivity|]. exists (path :: missing). cbn [pick1 wrote failed app map].
        split; [rewrite <- Permutation_middle; now constructor|]. constructor; [right; split; [reflexivity|]; now left|]. apply (D' [r]).
      + destruct Fl as (f & Fl & R). cbn [task_lines snd fst]. rewrite Pr, Fl. split; [reflexivity|]. exists (path :: missing). cbn [pick1 wrote failed app map].
        split; [rewrite <- Permutation_middle; now constructor|]. constructor; [now left|]. apply (D' []).
  Qed.

  Lemma run_messages paths jobs flushes r out lost log : tasks p zero c opens saves paths jobs -> loud_run jobs true flushes r out lost log -> ~ In Panic (map snd jobs) ->
    Permutation (processed log) paths
    /\ exists missing fs, Permutation (map rec_name (records out) ++ missing) paths /\ Permutation fs (failures log)
       /\ Forall2 (fun q f => reason q f \/ f = NoWrite /\ In q (map rec_name lost)) missing fs.
  Proof.
    intros T H NP. inversion H as [|fl s lg St F Sh]; subst. pose proof (all_settled _ _ St F NP) as A. destruct (run_parts _ _ T _ A) as (P & missing & M & D).
    pose proof (shuffle_perm _ _ Sh) as Pm. split; [rewrite (processed_perm _ _ Pm), P; reflexivity|].
    pose proof (d_reachable _ _ St) as I. exists missing. eexists. split; [|split; [symmetry; apply failures_perm, Pm|]].
    - destruct (di_out _ _ _ I) as (l & Pl & O). replace (records (b_out (d_bench s))) with l.
      2: { destruct O as [(_ & _ & -> & ->)|[(_ & _ & _ & -> & ->)|(_ & _ & ->)]]; [reflexivity|reflexivity|now rewrite records_table]. }
      rewrite Pl. exact M.
    - eapply forall2_weaken; [|exact D]. cbn beta. intros q f [R|[-> R]]; [now left|]. right. split; [reflexivity|].
      eapply Permutation_in; [|exact R]. apply Permutation_map. symmetry. exact (di_lost _ _ _ I).
  Qed.
  Lemma run_count paths jobs flushes r out lost log : tasks p zero c opens saves paths jobs -> loud_run jobs true flushes r out lost log -> ~ In Panic (map snd jobs) ->
    (length (records out) + length (failures log) = length paths)%nat.
  Proof.
    intros T H NP. destruct (run_messages _ _ _ _ _ _ _ T H NP) as (_ & missing & fs & P & Q & D).
    apply Permutation_length in P, Q. apply forall2_length in D. rewrite app_length, map_length in P. lia.
  Qed.
End Run.

(** ** Every run *)
Lemma nth_combine {A B} : forall (l : list A) (l' : list B) i a b, nth_error l i = Some a -> nth_error l' i = Some b -> nth_error (combine l l') i = Some (a, b).
Proof. induction l as [|x l IH]; intros [|y l'] [|i] a b Ha Hb; try discriminate; cbn in *; [congruence|now apply IH]. Qed.
Lemma run_order jobs flushes r out lost log : loud_run jobs true flushes r out lost log -> forall i j, nth_error jobs i = Some j ->
  exists ls, subsequence ls log /\ (ls = fst j \/ (exists rc, snd j = Ok rc /\ In rc lost) /\ ls = fst j ++ [Failure NoWrite] \/ In Panic (map snd jobs) /\ ls = []).
Proof.
  intros H i j Hj. inversion H as [|fl s lg St F Sh]; subst. pose proof (d_reachable _ _ St) as I.
  assert (Hj' : nth_error (map snd jobs) i = Some (snd j)) by now apply map_nth_error.
  destruct (nth_error (b_tasks (d_bench s)) i) as [t|] eqn:Ht.
  2: { apply nth_error_None in Ht. pose proof (di_len _ _ _ I). pose proof (proj1 (nth_error_Some (map snd jobs) i) ltac:(congruence)). lia. }
  exists (task_lines j t). split.
  - eapply shuffle_sub; [exact Sh|]. unfold all_lines. exact (map_nth_error _ _ _ (nth_combine _ _ _ _ _ Hj Ht)).
  - destruct j as [ls j]. pose proof (di_agree _ _ _ I _ _ _ Ht Hj') as A. unfold task_lines. cbn [fst snd] in *. destruct t; try (left; reflexivity).
    + destruct j as [rc| |]; [|now left|now left]. right. left. split; [|reflexivity]. exists rc. split; [reflexivity|].
      eapply Permutation_in; [symmetry; exact (di_lost _ _ _ I)|]. clear - Ht Hj'. revert i Ht Hj'. generalize (map snd jobs) as js, (b_tasks (d_bench s)) as ts.
      induction js as [|j js IH]; intros [|t ts] [|i] Ht Hj; try discriminate; cbn in *; [injection Ht as ->; injection Hj as ->; now left|]. apply in_or_app. right. now apply (IH _ i).
    + right. right. split; [|reflexivity]. cbn in A. apply (d_crash _ _ I F). apply existsb_exists. now exists Crashed.
Qed.
Lemma run_lines jobs creates flushes r out lost log : loud_run jobs creates flushes r out lost log -> forall l, In l log ->
  (exists j, In j jobs /\ In l (fst j)) \/ l = Failure NoWrite /\ lost <> [].
Proof.
  intros H l Hl. inversion H as [|fl s lg St F Sh]; subst; [destruct Hl|]. pose proof (d_reachable _ _ St) as I.
  apply (Permutation_in _ (shuffle_perm _ _ Sh)) in Hl. apply in_concat in Hl as (ls & Hls & Hl). unfold all_lines in Hls. apply in_map_iff in Hls as ((j & t) & <- & Hc).
  cbn [fst snd] in Hl. pose proof (in_combine_l _ _ _ _ Hc) as Hj. unfold task_lines in Hl. destruct t; try (left; now exists j).
  destruct j as [ls [rc| |]]; cbn [fst snd] in Hl; try (left; now exists (ls, Err)); try (left; now exists (ls, Panic)). apply in_app_or in Hl as [Hl|[<-|[]]]; [left; now exists (ls, Ok rc)|].
  right. split; [reflexivity|]. intros E. pose proof (di_lost _ _ _ I) as P. rewrite E in P. apply Permutation_nil in P. revert Hc P. clear.
  generalize (b_tasks (d_bench s)) as ts. induction jobs as [|j js IH]; intros [|t ts] Hc P; try destruct Hc.
  - injection H as -> ->. discriminate P.
  - cbn in P. apply app_eq_nil in P as [_ P]. now apply (IH ts).
Qed.
