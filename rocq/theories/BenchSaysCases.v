(** * The messages of the benchmark: lossless codecs, and examples. *)
From Coq Require Import String Permutation Sorted Lia.
From Flocq Require Import BinarySingleNaN.
From Verif Require Import Base Prs Float Img HilbertC CodecSpec CodecCases Select Bench BenchSpec BenchPar BenchTop BenchLossless Special Images ImagesSpec BenchDisk BenchDiskProofs BenchDiskTop Program ProgramSpec ProgramProofs BenchSays BenchSaysSpec BenchSaysProofs BenchSaysTop PropsBench.
Close Scope string_scope.
Open Scope list_scope.

Lemma zero_lines p zero c path o saves rc ls r : measure_one p zero c path (the_image o) saves = Some (Ok rc) -> feq (rec_error rc) (f64_of_N 0) = true ->
  measure_says p zero c path o saves = Some (ls, r) -> (forall im, o = inl im -> 24 * pixels im < 2 ^ 32)%N -> r = Ok rc /\ forall opens, opens path = o -> ls = three_lines opens rc.
Proof.
  intros H Z. unfold measure_one, measure_says in *. destruct o as [im|e]; [|discriminate H]. cbn [the_image] in H.
  destruct (enc c im) as [[data| |]|]; try discriminate H. destruct (raw_size p im) as [raw| |] eqn:R; try discriminate H.
  destruct (dec c data) as [[y| |]|]; try discriminate H. destruct (compute_error p zero im y) as [e| |]; try discriminate H.
  assert (Ze : feq e (f64_of_N 0) = true).
  { destruct (negb (feq e (f64_of_N 0))); [destruct (negb saves); [discriminate H|]; destruct (lossless c); [discriminate H|]|]; injection H as <-; exact Z. }
  rewrite Ze in *. cbn [negb] in *. injection H as <-. intros [= <- <-] S. split; [reflexivity|]. intros opens O. cbn [three_lines app]. rewrite O.
  apply raw_sized in R as [_ ->]. rewrite N.mod_small by (now apply S). reflexivity.
Qed.

Lemma all_written : forall jobs ts, Forall2 settled (map snd jobs) ts -> pick failed ts (map snd jobs) = [] -> all_lines jobs ts = map fst jobs.
Proof.
  induction jobs as [|[ls j] jobs IH]; intros ts F P; inversion F as [|? t ? ts' St F']; subst; [reflexivity|]. cbn [map snd pick] in *. apply app_eq_nil in P as [P1 P].
  unfold all_lines in *. cbn [combine map fst snd]. f_equal; [|now apply IH]. unfold task_lines. destruct t; cbn in St; try contradiction; [destruct St as [r ->]; reflexivity|].
  destruct j as [r| |]; [discriminate P1|reflexivity|reflexivity].
Qed.

Lemma quiet p sg opens saves E c paths : any_is_lossless c = true -> (c = Zip ZBack -> Forall (tiny (fun q => the_image (opens q))) paths) ->
  Forall (fine (fun q => the_image (opens q)) E) paths ->
  exists f0, forall E', (forall path, In path paths -> e_scan (E' path) = e_scan (E path) /\ (2 <= e_stack (E' path))%nat /\ (f0 <= e_fuel (E' path))%nat) ->
  forall jobs flushes r out log, tasks p (B754_zero sg) (fun q => any (E q) (E' q) c) opens saves paths jobs -> loud_run jobs true flushes r out [] log ->
  filter to_stderr log = [] /\ exists l, out = table l /\ Permutation log (flat_map (three_lines opens) l).
Proof.
  intros Hl Hz F. destruct (lossless_jobs p (fun _ => None) sg (fun q => the_image (opens q)) saves E c Hl paths Hz F) as [f0 J]. exists f0. intros E' HE jobs flushes r out log T L.
  specialize (J E' HE).
  assert (G : exists l, jobs = map (fun r => (three_lines opens r, Ok r)) l).
  { clear L HE. revert F J. unfold tasks in T. clear Hz. induction T as [|path [ls j] paths jobs H T IH]; intros F J; [now exists []|].
    destruct (IH (Forall_inv_tail F) (fun q Hq => J q (or_intror Hq))) as [l ->]. destruct (J path (or_introl eq_refl)) as (rc & Hj & Z).
    pose proof (Forall_inv F) as (im & O & _ & _ & Hn & _). unfold job in Hj.
    destruct (zero_lines _ _ _ _ _ _ _ _ _ Hj Z H) as [-> X]; [intros im' Ho; cbn beta in O; rewrite Ho in O; injection O as <-; exact Hn|]. exists (rc :: l). cbn. now rewrite (X opens eq_refl). }
  destruct G as [l ->]. assert (Sn : forall l, map snd (map (fun r : record => (three_lines opens r, Ok r)) l) = map (@Ok record) l) by (intros k; now rewrite map_map).
  assert (NP : ~ In Panic (map (@Ok record) l)) by (intros I; apply in_map_iff in I as (x & D & _); discriminate D).
  assert (Su : forall l, successes (map (@Ok record) l) = l) by (induction l0 as [|x k IH]; cbn; [reflexivity|now rewrite IH]).
  pose proof (loud_table _ _ _ _ _ _ _ L) as Tb. rewrite Sn in Tb. destruct (d_no_failure _ _ _ _ Tb NP) as (l' & P & ->). rewrite Su in P.
  inversion L as [|fl s lg St Fe Sh]; subst. rewrite Sn in *. pose proof (all_settled _ _ St Fe NP) as A. pose proof (di_lost _ _ _ (d_reachable _ _ St)) as Lo.
  match goal with H : d_lost s = [] |- _ => rewrite H in Lo | H : [] = d_lost s |- _ => rewrite <- H in Lo end. apply Permutation_nil in Lo.
  rewrite (all_written _ _ ltac:(rewrite Sn; exact A) ltac:(rewrite Sn; exact Lo)) in Sh. apply shuffle_perm in Sh.
  rewrite map_map in Sh. cbn [fst] in Sh. rewrite <- flat_map_concat_map in Sh.
  assert (Q : Permutation log (flat_map (three_lines opens) l')).
  { rewrite Sh. symmetry. now apply Permutation_flat_map. }
  split; [|exists l'; now split]. destruct (filter to_stderr log) as [|x k] eqn:Fx; [reflexivity|exfalso].
  assert (Hx : In x (filter to_stderr log)) by (rewrite Fx; now left). apply filter_In in Hx as [Hx Hs]. apply (Permutation_in _ Q) in Hx. apply in_flat_map in Hx as ([[[q n] ra] e] & _ & Hx).
  cbn [three_lines In] in Hx. destruct Hx as [<-|[<-|[<-|[]]]]; discriminate Hs.
Qed.

(** ** Messages do not tell which image failed *)
Definition pa : text := txt "a.png".
Definition pb : text := txt "b.png".
Definition gone : text := txt "IoError(Os { code: 2, kind: NotFound, message: ""No such file or directory"" })".
(** One of two files is missing *)
Definition only (q : text) : text -> opened := fun path => if text_eqb path q then inl pic else inr gone.
Definition delta_codec (_ : text) : codec := any env1 env1 Delta.
Lemma pic_lines : exists n, forall name o, o = inl pic -> exists rc, measure_says Debug (B754_zero true) (delta_codec name) name o true = Some ([Processing name; CompressedSize n; RawSize 96], Ok rc) /\ rec_name rc = name.
Proof.
  assert (H : match measure_one Debug (B754_zero true) (any env1 env1 Delta) (txt "pic.png") (Some pic) true with Some (Ok (_, size, _, e)) => feq e (f64_of_N 0) | _ => false end = true) by (vm_compute; reflexivity).
  unfold measure_one in *. destruct (enc (any env1 env1 Delta) pic) as [[data| |]|] eqn:En; try discriminate H. destruct (raw_size Debug pic) as [raw| |] eqn:R; try discriminate H.
  destruct (dec (any env1 env1 Delta) data) as [[y| |]|] eqn:De; try discriminate H. destruct (compute_error Debug (B754_zero true) pic y) as [e| |] eqn:Er; try discriminate H.
  cbn [lossless any any_is_lossless] in *. destruct (feq e (f64_of_N 0)) eqn:Z; cbn [negb] in *; [|discriminate H].
  exists (N.of_nat (length data)). intros name o ->. unfold measure_says, delta_codec. rewrite En, R, De, Er, Z. cbn [negb]. apply raw_sized in R as [_ ->]. eexists. split; reflexivity.
Qed.

Lemma run_second ls ls' r : forall log, shuffle [ls; ls'] log -> loud_run [(ls, Err); (ls', Ok r)] true true (Ok tt) [Header; Row r] [] log.
Proof.
  intros log Sh.
  enough (H : exists s, dsteps [Err; Ok r] (d_init [Err; Ok r]) s /\ s = mkD (mkB [Failed; Done] None true [Header; Row r]) []).
  { destruct H as (s & H & ->). exact (loud_file [(ls, Err); (ls', Ok r)] true _ _ H ltac:(cbn; repeat constructor) Sh). }
  eexists. split.
  - fine; [apply (step_fail _ 0); reflexivity|]. fine; [apply (step_measure _ 1 r); reflexivity|].
    fine; [apply (step_lock _ 1 r); reflexivity|]. fine; [apply (step_header _ 1 r); reflexivity|].
    fine; [apply (step_flag _ 1 r); reflexivity|]. fine; [apply (step_write _ 1 r); reflexivity|]. fine; [apply (step_unlock _ 1); reflexivity|]. apply dsteps_nil.
  - reflexivity.
Qed.
Lemma run_first ls ls' r : forall log, shuffle [ls; ls'] log -> loud_run [(ls, Ok r); (ls', Err)] true true (Ok tt) [Header; Row r] [] log.
Proof.
  intros log Sh.
  enough (H : exists s, dsteps [Ok r; Err] (d_init [Ok r; Err]) s /\ s = mkD (mkB [Done; Failed] None true [Header; Row r]) []).
  { destruct H as (s & H & ->). exact (loud_file [(ls, Ok r); (ls', Err)] true _ _ H ltac:(cbn; repeat constructor) Sh). }
  eexists. split.
  - fine; [apply (step_fail _ 1); reflexivity|]. fine; [apply (step_measure _ 0 r); reflexivity|].
    fine; [apply (step_lock _ 0 r); reflexivity|]. fine; [apply (step_header _ 0 r); reflexivity|].
    fine; [apply (step_flag _ 0 r); reflexivity|]. fine; [apply (step_write _ 0 r); reflexivity|]. fine; [apply (step_unlock _ 0); reflexivity|]. apply dsteps_nil.
  - reflexivity.
Qed.
Ltac pull k := eapply (shuffle_cons k); [reflexivity|]; cbn [upd].
Lemma who_failed : exists paths path opens opens' jobs jobs' out out' log,
  let run opens jobs out := tasks Debug (B754_zero true) delta_codec opens (fun _ => true) paths jobs /\ loud_run jobs true true (Ok tt) out [] log in
  run opens jobs out /\ run opens' jobs' out' /\ In path (map rec_name (records out)) /\ ~ In path (map rec_name (records out')).
Proof.
  destruct pic_lines as [n L]. destruct (L pa (only pa pa) eq_refl) as (ra & Ha & Na). destruct (L pb (only pb pb) eq_refl) as (rb & Hb & Nb).
  exists [pa; pb], pa, (only pa), (only pb). do 2 eexists. exists [Header; Row ra], [Header; Row rb], [Processing pa; Processing pb; CompressedSize n; RawSize 96; Failure (NoOpen gone)].
  cbv zeta. split; [|split; [|split]].
  - split; [apply Forall2_cons; [exact Ha|apply Forall2_cons; [reflexivity|apply Forall2_nil]]|]. apply run_first. pull 0%nat. pull 1%nat. pull 0%nat. pull 0%nat. pull 1%nat. constructor. repeat constructor.
  - split; [apply Forall2_cons; [reflexivity|apply Forall2_cons; [exact Hb|apply Forall2_nil]]|]. apply run_second. pull 0%nat. pull 1%nat. pull 1%nat. pull 1%nat. pull 0%nat. constructor. repeat constructor.
  - cbn. left. exact Na.
  - cbn. intros [D|[]]. rewrite Nb in D. discriminate D.
Qed.

Lemma loud_exists jobs creates flushes r out lost : table_run (map snd jobs) creates flushes r out lost -> exists log, loud_run jobs creates flushes r out lost log.
Proof. intros H. destruct H as [flushes|flushes s H F]; [exists []; constructor|]. eexists. constructor; [exact H|exact F|apply shuffle_concat]. Qed.
Lemma raw_bits p zero c path im saves ls r n : measure_says p zero c path (inl im) saves = Some (ls, r) -> In (RawSize n) ls -> (24 * pixels im < 2 ^ 32)%N -> n = (8 * (3 * pixels im))%N.
Proof.
  intros H I L. apply (proj1 (proj2 (proj2 (proj2 (one_lines _ _ _ _ _ _ _ _ H))))) in I as (im' & data & ([= <-] & _) & _ & ->). rewrite N.mod_small by exact L. lia.
Qed.
Lemma not_bytes : exists p zero c path im saves ls r n, img_ok im /\ measure_says p zero c path (inl im) saves = Some (ls, r) /\ In (RawSize n) ls /\ n <> (3 * pixels im)%N.
Proof.
  destruct pic_lines as [n L]. destruct (L pa (inl pic) eq_refl) as (ra & Ha & _). exists Debug, (B754_zero true), (delta_codec pa), pa, pic, true. eexists. eexists. exists 96%N.
  split; [exact pic_ok|]. split; [exact Ha|]. split; [cbn [In]; auto|]. cbn. discriminate.
Qed.
Lemma loud_case : exists jobs out log, tasks Debug (B754_zero true) delta_codec (only pa) (fun _ => true) [pa; pb] jobs
  /\ loud_run jobs true true (Ok tt) out [] log /\ ~ In Panic (map snd jobs) /\ failures log = [NoOpen gone] /\ map rec_name (records out) = [pa].
Proof.
  destruct pic_lines as [n L]. destruct (L pa (only pa pa) eq_refl) as (ra & Ha & Na). do 3 eexists.
  split; [apply Forall2_cons; [exact Ha|apply Forall2_cons; [reflexivity|apply Forall2_nil]]|]. split; [apply run_first, shuffle_concat|].
  split; [cbn; intros [D|[D|[]]]; discriminate D|]. split; [reflexivity|]. cbn. now rewrite Na.
Qed.
Lemma quiet_case : Forall (fine (fun q => the_image (only pa q)) (fun _ => env1)) [pa].
Proof.
  destruct C56_case as (H1 & H2 & H3 & H4 & _). constructor; [|constructor]. exists pic. split; [reflexivity|]. split; [exact H2|]. split; [apply H3|]. split; [exact H4|exact H1].
Qed.
