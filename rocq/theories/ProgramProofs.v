(** * Proofs about whole runs of the program (C68) and the Makefile (C69). *)
From Coq Require Import String Decimal DecimalString DecimalN.
From Flocq Require Import BinarySingleNaN.
From Verif Require Import Base Ser Prs PrsSpec PrsProofs PrsTop Regex Float Img HilbertC CodecSpec ClusterC Select SelectSpec SelectProofs SelectTop Main Bench BenchSpec BenchPar BenchTop BenchLossless
  Special SpecialSpec SpecialProofs Program ProgramSpec.
Close Scope string_scope.
Open Scope list_scope.
Notation length := List.length.

(** ** Runs of the benchmark *)
Lemma main_codec p d f t c paths : any_codec_from_str p d f t = POk c -> main p d f ((txt "--codec=" ++ t) :: paths) = Ok (Measure c paths).
Proof. intros H. apply main_spec. right. exists t, c, paths. auto. Qed.
Lemma forall2_jobs {A B} (f : A -> option B) : forall l, (forall a, In a l -> exists b, f a = Some b) -> exists bs, Forall2 (fun a b => f a = Some b) l bs.
Proof.
  induction l as [|a l IH]; intros H; [exists []; constructor|]. destruct (H a) as [b Hb]; [now left|]. destruct IH as [bs Hbs]; [intros x Hx; apply H; now right|].
  exists (b :: bs). now constructor.
Qed.
(** Every benchmark ends in some state. *)
Lemma bsteps_app jobs s1 s2 s3 : bsteps jobs s1 s2 -> bsteps jobs s2 s3 -> bsteps jobs s1 s3.
Proof. induction 1 as [|a b c A B IH]; [auto|]. intros H. econstructor; eauto. Qed.
Lemma bench_ends jobs : forall n s, bsteps jobs (b_init jobs) s -> (lefts (b_tasks s) < n)%nat -> exists s', bsteps jobs (b_init jobs) s' /\ Forall ended (b_tasks s').
Proof.
  induction n as [|n IH]; intros s H L; [lia|]. destruct (Forall_dec ended (fun t => match t with Done | Failed | Crashed | Skipped => left I | _ => right (fun f => f) end) (b_tasks s)) as [F|F]; [eauto|].
  destruct (progress jobs s H F) as [s' St]. apply (IH s'); [|pose proof (step_less _ _ _ St); lia].
  apply bsteps_app with (1 := H). eapply bsteps_cons; [exact St|]. constructor.
Qed.
Section Run.
  Variables (p : profile) (is_digit : N -> bool) (parse_f64 : text -> option f64) (show : f64 -> text) (zero : f64)
    (opens : text -> option img) (saves : text -> bool) (E E' : text -> env) (scan : scanner).
  Notation program := (program p is_digit parse_f64 show zero opens saves E E' scan).
  Notation job := (job p zero opens saves E E').
  Notation describes := (describes p zero opens E E').
  Notation fails := (fails p zero opens saves E E').

  Lemma job_record c path r : job c path = Some (Ok r) -> rec_name r = path /\ describes c r.
  Proof.
    unfold Program.job, measure_one. destruct (opens path) as [im|] eqn:O; [|discriminate]. cbn [enc dec lossless any].
    destruct (any_encode (E path) c im) as [[data| |]|] eqn:En; try discriminate. destruct (raw_size p im) as [raw| |] eqn:Rw; try discriminate.
    assert (Rr : raw = (24 * pixels im mod 2 ^ 32)%N /\ (p = Debug -> 24 * pixels im < 2 ^ 32)%N).
    { rewrite raw_size_spec in Rw. destruct (N.ltb_spec (24 * pixels im) (2 ^ 32)) as [L|L]; [injection Rw as <-; rewrite N.mod_small by exact L; auto|]. destruct p; [discriminate|]. injection Rw as <-. split; [reflexivity|discriminate]. }
    destruct (any_decode (E' path) c data) as [[y| |]|] eqn:De; try discriminate. destruct (compute_error p zero im y) as [e| |] eqn:Er; try discriminate.
    assert (G : forall x, x = (path, N.of_nat (length data), fmul (fdiv (f64_of_N (N.of_nat (length data))) (f64_of_N raw)) (f64_of_N 100), e) -> rec_name x = path /\ describes c x).
    { intros x ->. split; [reflexivity|]. destruct Rr as [-> Rr]. exists im, data, y. repeat (split; [first [assumption|reflexivity]|]). exact Er. }
    destruct (negb (feq e (f64_of_N 0))); [destruct (negb (saves path)); [discriminate|]; destruct (any_is_lossless c); [discriminate|]|]; intros [= <-]; now apply G.
  Qed.
  Lemma job_passes c path r : job c path = Some (Ok r) -> passes saves c r.
  Proof.
    unfold Program.job, measure_one. destruct (opens path) as [im|] eqn:O; [|discriminate]. cbn [enc dec lossless any].
    destruct (any_encode (E path) c im) as [[data| |]|] eqn:En; try discriminate. destruct (raw_size p im) as [raw| |] eqn:Rw; try discriminate.
    destruct (any_decode (E' path) c data) as [[y| |]|] eqn:De; try discriminate. destruct (compute_error p zero im y) as [e| |] eqn:Er; try discriminate.
    unfold passes. destruct (feq e (f64_of_N 0)) eqn:Z; cbn [negb]; [intros [= <-]; now left|]. destruct (saves path) eqn:Sv; [|discriminate]. destruct (any_is_lossless c); [discriminate|].
    intros [= <-]. now right.
  Qed.
  Lemma ufit_no_err q m n : ufit q m n <> Err.
  Proof. unfold ufit. destruct (n <? m)%N; [discriminate|]. destruct q; discriminate. Qed.
  Lemma job_err c path : job c path = Some Err -> fails c path.
  Proof.
    unfold Program.job, measure_one. destruct (opens path) as [im|] eqn:O; [|now left]. cbn [enc dec lossless any]. intros H. right. exists im. split; [exact O|].
    destruct (any_encode (E path) c im) as [[data| |]|] eqn:En; try discriminate; [|now left]. right. exists data. split; [reflexivity|].
    destruct (raw_size p im) as [raw| |] eqn:R; try discriminate.
    2: { unfold raw_size, res_bind in R. destruct (ufit p (2 ^ 32) (im_w im * im_h im)) eqn:U; try discriminate; [|now apply ufit_no_err in U]. now apply ufit_no_err in R. }
    destruct (any_decode (E' path) c data) as [[y| |]|] eqn:De; try discriminate; [|now left]. right. exists y.
    destruct (compute_error p zero im y) as [e| |] eqn:Er; try discriminate.
    2: { unfold compute_error, res_bind in Er. destruct (ufit p (2 ^ 32) (im_w im * im_h im)) eqn:U; try discriminate. now apply ufit_no_err in U. }
    exists e. split; [reflexivity|]. split; [reflexivity|]. destruct (feq e (f64_of_N 0)) eqn:Z; [discriminate|]. split; [reflexivity|]. cbn [negb] in H.
    destruct (saves path); [right|now left]. cbn [negb] in H. destruct (any_is_lossless c); [reflexivity|discriminate].
  Qed.
  Lemma jobs_split c paths jobs : Forall2 (fun path j => job c path = Some j) paths jobs ->
    Forall (fun r => describes c r /\ passes saves c r) (successes jobs) /\ exists missing, Permutation (map rec_name (successes jobs) ++ missing) paths /\ (~ In Panic jobs -> Forall (fails c) missing).
  Proof.
    induction 1 as [|path j paths jobs H _ (IH1 & missing & IH2 & IH3)]; [split; [constructor|]; exists []; split; [constructor|constructor]|].
    destruct j as [r| |]; cbn [successes].
    - pose proof (job_passes c path r H) as Q. destruct (job_record c path r H) as [<- D]. split; [now constructor|]. exists missing. split; [cbn; now constructor|]. intros N. apply IH3. intros I. apply N. now right.
    - split; [exact IH1|]. exists (path :: missing). split; [apply Permutation_sym, Permutation_cons_app, Permutation_sym, IH2|].
      intros N. constructor; [now apply job_err|]. apply IH3. intros I. apply N. now right.
    - split; [exact IH1|]. exists (path :: missing). split; [apply Permutation_sym, Permutation_cons_app, Permutation_sym, IH2|]. intros N. destruct N. now left.
  Qed.
  Lemma program_shape t c paths out files : any_codec_from_str p is_digit parse_f64 t = POk c -> program ((txt "--codec=" ++ t) :: paths) out files ->
    exists jobs s, Forall2 (fun path j => job c path = Some j) paths jobs /\ bsteps jobs (b_init jobs) s /\ Forall ended (b_tasks s)
    /\ out = fst (finish s) /\ files = [Table (table_file show c) (snd (finish s))].
  Proof.
    intros H P. pose proof (main_codec p is_digit parse_f64 t c paths H) as M.
    inversion P as [c' paths' jobs s M' J B En|paths' files' M' D|paths' M' D|M']; subst; rewrite M in M'; try discriminate. injection M' as <- <-. eauto 8.
  Qed.
  Lemma panic_dec : forall jobs : list (res record), In Panic jobs \/ ~ In Panic jobs.
  Proof. induction jobs as [|j jobs IH]; [now right|]. destruct j as [r| |]; [| |now left; left]; (destruct IH as [I|I]; [left; now right|right; intros [D|D]; [discriminate|auto]]). Qed.
  Lemma any_run t c paths out files : any_codec_from_str p is_digit parse_f64 t = POk c -> program ((txt "--codec=" ++ t) :: paths) out files ->
    exists rows l missing, files = [Table (table_file show c) rows]
    /\ (rows = [] /\ l = [] \/ rows = Header :: map Row l)
    /\ Permutation (map rec_name l ++ missing) paths /\ Forall (fun r => describes c r /\ passes saves c r) l
    /\ (out = Ok tt /\ rows = table l /\ Forall (fails c) missing
         \/ out = Panic /\ exists path, In path paths /\ job c path = Some Panic).
  Proof.
    intros H P. destruct (program_shape t c paths out files H P) as (jobs & s & J & B & En & -> & ->).
    destruct (jobs_split c paths jobs J) as (D & m & M1 & M2). destruct (panic_dec jobs) as [I|I].
    - destruct (always jobs s B) as (l & rest & Pm & R). exists (b_out s), l, (map rec_name rest ++ m). split; [reflexivity|]. split; [exact R|]. split.
      + eapply Permutation_trans; [|exact M1]. rewrite app_assoc. apply Permutation_app_tail. rewrite <- map_app. now apply Permutation_map.
      + split; [apply Permutation_sym in Pm; pose proof (Permutation_Forall Pm D) as F; now apply Forall_app in F|]. right. split; [now apply (final_panic jobs)|].
        clear - J I. induction J as [|path j paths jobs H J IH]; [destruct I|]. destruct I as [->|I]; [exists path; split; [now left|exact H]|].
        destruct (IH I) as (q & Hq & Q). exists q. split; [now right|exact Q].
    - destruct (final_table jobs s B En I) as (l & Pm & F). exists (table l), l, m. rewrite F. split; [reflexivity|]. split; [destruct l; [left; auto|now right]|]. split.
      + eapply Permutation_trans; [|exact M1]. apply Permutation_app_tail, Permutation_map, Pm.
      + split; [apply (Permutation_Forall (Permutation_sym Pm) D)|]. left. split; [reflexivity|]. split; [reflexivity|]. now apply M2.
  Qed.
  Lemma run_exists t c paths : any_codec_from_str p is_digit parse_f64 t = POk c -> (forall path, In path paths -> exists j, job c path = Some j) ->
    exists out files, program ((txt "--codec=" ++ t) :: paths) out files.
  Proof.
    intros H J. destruct (forall2_jobs _ _ J) as [jobs Hj]. destruct (bench_ends jobs (S (lefts (b_tasks (b_init jobs)))) (b_init jobs)) as (s & B & En); [constructor|lia|].
    eexists. eexists. eapply program_bench; [apply main_codec, H|exact Hj|exact B|exact En].
  Qed.
End Run.

(** ** Runs of the dump *)
Section Dumps.
  Variables (p : profile) (is_digit : N -> bool) (parse_f64 : text -> option f64) (show : f64 -> text) (zero : f64)
    (opens : text -> option img) (saves : text -> bool) (E E' : text -> env) (scan : scanner).
  Notation run paths := (program p is_digit parse_f64 show zero opens saves E E' scan (txt "--special=hilbert" :: paths)).
  Lemma main_dump paths : main p is_digit parse_f64 (txt "--special=hilbert" :: paths) = Ok (Linearize paths).
  Proof. apply main_spec. left. exists paths. auto. Qed.
  Lemma dump_all_ok : forall paths, Forall (dumpable opens) paths -> (forall w h, (w < 2 ^ 32)%N -> (h < 2 ^ 32)%N -> visits_all w h (scan w h)) ->
    exists parts, Forall2 (fun path part => exists im fs, opens path = Some im /\ dump p scan path im = Ok fs /\ part = map (fun f => Dump (fst f) (snd f)) fs) paths parts
    /\ dump_all p opens scan paths = Ok (concat parts).
  Proof.
    intros paths F Hs. induction F as [|path paths (d & name & im & -> & Hd & Hn & O & Hi & Hw & Hh) F (parts & IH1 & IH2)]; [exists []; split; [constructor|reflexivity]|].
    destruct (dump_spec p scan d name im Hi Hw Hh Hd Hn Hs) as (stem & r & sm & l & _ & _ & _ & _ & _ & D & _).
    eexists. split; [constructor; [exists im; eexists; split; [exact O|]; split; [exact D|reflexivity]|exact IH1]|]. cbn [dump_all]. rewrite O. cbn [res_bind]. rewrite D. cbn [res_bind]. rewrite IH2. reflexivity.
  Qed.
  Lemma dump_run paths : Forall (dumpable opens) paths -> (forall w h, (w < 2 ^ 32)%N -> (h < 2 ^ 32)%N -> visits_all w h (scan w h)) ->
    exists parts, Forall2 (fun path part => exists im fs, opens path = Some im /\ dump p scan path im = Ok fs /\ part = map (fun f => Dump (fst f) (snd f)) fs) paths parts
    /\ forall out files, run paths out files <-> out = Ok tt /\ files = concat parts.
  Proof.
    intros F Hs. destruct (dump_all_ok paths F Hs) as (parts & P & D). exists parts. split; [exact P|]. pose proof (main_dump paths) as M. intros out files. split.
    - intros R. inversion R as [c' paths' jobs s M'|paths' files' M' D'|paths' M' D'|M']; subst; rewrite M in M'; try discriminate; injection M' as <-; rewrite D in D'; [injection D' as <-; auto|discriminate].
    - intros [-> ->]. eapply program_dump; eauto.
  Qed.
  Lemma dump_unreadable paths out files : (exists path, In path paths /\ opens path = None) -> run paths out files -> out = Panic.
  Proof.
    intros (path & I & O) R. pose proof (main_dump paths) as M.
    assert (D : forall fs, dump_all p opens scan paths <> Ok fs).
    { clear R M. induction paths as [|q paths IH]; [destruct I|]. intros fs. cbn [dump_all]. destruct I as [->|I]; [rewrite O; discriminate|].
      destruct (opens q); [|discriminate]. cbn [res_bind]. destruct (dump p scan q i); try discriminate. cbn [res_bind]. specialize (IH I). destruct (dump_all p opens scan paths) as [x| |]; try discriminate. now destruct (IH x). }
    inversion R as [c' paths' jobs s M'|paths' files' M' D'|paths' M' D'|M']; subst; rewrite M in M'; try discriminate; [|reflexivity]. injection M' as <-. now apply D in D'.
  Qed.
End Dumps.

(** ** Decimal numbers *)
Definition digit_step (a c : N) : N := (a * 10 + (c - 48))%N.
Lemma txt_cons a s : txt (String a s) = Ascii.N_of_ascii a :: txt s.
Proof. reflexivity. Qed.
Lemma fold_digits : forall d a, fold_left digit_step (txt (NilEmpty.string_of_uint d)) (N.pos a) = N.pos (Pos.of_uint_acc d a).
Proof.
  induction d as [|d IH|d IH|d IH|d IH|d IH|d IH|d IH|d IH|d IH|d IH]; intros a; [reflexivity|..]; cbn [NilEmpty.string_of_uint Pos.of_uint_acc]; rewrite txt_cons; cbn [fold_left]; rewrite <- IH; f_equal;
    unfold digit_step; match goal with |- context [Ascii.N_of_ascii ?x] => let v := eval vm_compute in (Ascii.N_of_ascii x) in change (Ascii.N_of_ascii x) with v end; lia.
Qed.
Lemma number_uint : forall d, number (txt (NilEmpty.string_of_uint d)) = N.of_uint d.
Proof.
  unfold number. change (fun a c : N => (a * 10 + (c - 48))%N) with digit_step. unfold N.of_uint.
  induction d as [|d IH|d IH|d IH|d IH|d IH|d IH|d IH|d IH|d IH|d IH]; [reflexivity|exact IH|..]; cbn [NilEmpty.string_of_uint Pos.of_uint]; rewrite txt_cons; cbn [fold_left]; apply (fold_digits d).
Qed.
Lemma uint_digits : forall d, Forall (fun c => 48 <= c <= 57)%N (txt (NilEmpty.string_of_uint d)).
Proof. induction d as [|d IH|d IH|d IH|d IH|d IH|d IH|d IH|d IH|d IH|d IH]; [constructor|..]; cbn [NilEmpty.string_of_uint]; rewrite txt_cons; (constructor; [vm_compute; split; discriminate|exact IH]). Qed.
Lemma decimal_number n : number (decimal n) = n.
Proof. unfold decimal. rewrite number_uint. apply Unsigned.of_to. Qed.
Lemma decimal_digits n : digits (decimal n).
Proof.
  split; [|apply uint_digits]. intros H. assert (E : NilEmpty.string_of_uint (N.to_uint n) = EmptyString) by (apply txt_inj; exact H).
  destruct (N.to_uint n) eqn:U; try discriminate. pose proof (Unsigned.of_to n) as O. rewrite U in O. cbn in O. subst n. discriminate U.
Qed.

(** ** The Makefile *)
Lemma put_same name rows fs : put_table name rows fs name = Some rows.
Proof. unfold put_table. now rewrite (proj2 (text_eqb_eq name name) eq_refl). Qed.
Lemma put_other name rows fs f : f <> name -> put_table name rows fs f = fs f.
Proof. intros H. unfold put_table. destruct (text_eqb f name) eqn:E; [|reflexivity]. now apply text_eqb_eq in E. Qed.
Lemma next_open c (a b x y : text) : ~ In c a -> a ++ c :: x = b ++ c :: y -> b = a \/ exists b', b = a ++ c :: b' /\ x = b' ++ c :: y.
Proof.
  revert b. induction a as [|u a IH]; intros [|v b] Ha Eq; cbn [app] in Eq.
  - now left.
  - injection Eq as <- Eq. right. exists b. auto.
  - injection Eq as -> _. destruct Ha. now left.
  - injection Eq as <- Eq. destruct (IH b) as [->|(b' & -> & Q)]; [intros I; apply Ha; now right|exact Eq|now left|right; exists b'; auto].
Qed.
Lemma plain_no_open s : plain s -> ~ In LPAREN s.
Proof. intros H I. unfold plain in H. rewrite Forall_forall in H. apply (H _ I). now left. Qed.
Lemma approx_none words x : existsb (fun w => existsb (has_suffix (txt "hilbert")) [w] || existsb (has_suffix (txt "hilbert(rle")) [w]) words = false ->
  ~ In LPAREN x -> forall n, ~ numbered words (txt "hilbert(rle(" ++ x ++ txt "))") n.
Proof.
  intros H Nx n (ds & (pre & (_ & w & post & Hw & Eq) & _) & _).
  assert (S1 : ~ In LPAREN (x ++ txt "))")) by (rewrite in_app_iff; intros [I|I]; [auto|cbn in I; unfold LPAREN in I; intuition discriminate]).
  change (txt "hilbert(rle(" ++ x ++ txt "))") with (txt "hilbert" ++ LPAREN :: txt "rle" ++ LPAREN :: x ++ txt "))") in Eq.
  assert (Sx : forall q, has_suffix q w = true -> (q = txt "hilbert" \/ q = txt "hilbert(rle") -> False).
  { intros q Hq Hc. assert (B : existsb (fun w => existsb (has_suffix (txt "hilbert")) [w] || existsb (has_suffix (txt "hilbert(rle")) [w]) words = true).
    { apply existsb_exists. exists w. split; [exact Hw|]. cbn [existsb]. rewrite !orb_false_r. apply orb_true_iff. destruct Hc as [-> | ->]; auto. }
    congruence. }
  rewrite app_assoc in Eq. apply (Sx (pre ++ w) (suffix_ok pre w)). apply next_open in Eq; [|now apply plainb_no_open].
  destruct Eq as [->|(b' & -> & Eq)]; [now left|]. right. apply next_open in Eq; [|now apply plainb_no_open].
  destruct Eq as [->|(b'' & -> & Eq)]; [reflexivity|]. destruct S1. rewrite Eq. apply in_app_iff. right. now left.
Qed.
Section Rules.
  Variables (p : profile) (d : N -> bool) (f : text -> option f64) (show : f64 -> text).
  Hypothesis Hd : digit_class_ok d.
  Lemma approx_spelling x v : distance x -> f x = Some v -> any_codec_from_str p d f (txt "hilbert(rle(" ++ x ++ txt "))") = POk (Hilbert (RLE v)).
  Proof.
    intros [Nx Hx] Hv. assert (Px : plain x).
    { eapply Forall_impl; [|exact Hx]. cbn. unfold special, LPAREN, RPAREN, COMMA. intros c Hc. lia. }
    assert (NP : ~ In LPAREN x) by (intros I; unfold plain in Px; rewrite Forall_forall in Px; apply (Px _ I); now left).
    assert (A : ascii (txt "hilbert(rle(" ++ x ++ txt "))")).
    { rewrite !ascii_app. splits; [now apply ascii_txt_check| |now apply ascii_txt_check]. eapply Forall_impl; [|exact Hx]. cbn. intros c Hc. lia. }
    assert (Hn : nesting_below 65536 (txt "hilbert(rle(" ++ x ++ txt "))")).
    { intros u v0 Eq. assert (C : (count LPAREN (txt "hilbert(rle(" ++ x ++ txt "))") <= 2)%nat).
      { rewrite !count_app, (count_plain LPAREN x Px special_open). cbn. lia. }
      rewrite Eq, count_app in C. lia. }
    destruct (from_str_spec p d f Hd _ A Hn) as [S _]. apply S. right. right. split; [now apply approx_none|]. split; [now apply approx_none|].
    right. left. exists (txt "rle(" ++ x ++ txt ")"), (RLE v). split; [left; change (txt "hilbert(rle(") with (txt "hilbert(" ++ txt "rle("); change (txt "))") with (txt ")" ++ txt ")"); now rewrite <- !app_assoc|].
    split; [|reflexivity]. right. left. exists x, v. splits; auto. clear -Px. induction Px as [|c x Hc Px IH]; [constructor|now apply arg_char].
  Qed.
  Notation makes := (makes p d f show).
  Lemma fixed_makes : Forall2 makes fixed_rules [Hufman; Zip ZDict; Zip ZBack; Hilbert (RLE (f64_of_N 0)); Hilbert MZip; Delta].
  Proof.
    assert (Nil : forall s, ~ In LPAREN s -> nesting_below 65536 s).
    { intros s Ns u v Eq. assert (Z : count LPAREN u = 0%nat); [|lia]. unfold count. subst s. clear -Ns. induction u as [|c u IH]; [reflexivity|]. cbn [filter].
      destruct (N.eqb_spec c LPAREN) as [->|_]; [destruct Ns; now left|]. apply IH. intros I. apply Ns. now right. }
    assert (None1 : forall words s, ~ In LPAREN s -> forall n, ~ numbered words s n).
    { intros words s Ns n (ds & (pre & (_ & w & post & _ & Eq) & _) & _). apply Ns. rewrite Eq, !in_app_iff. right. right. now left. }
    assert (None2 : forall words name a, plain name -> plain a -> existsb (has_suffix name) words = false -> forall n, ~ numbered words (named name a) n).
    { intros words name a Pn Pa H n (ds & (pre & (_ & w & post & Hw & Eq) & _) & _). apply paren_once in Eq; [|now apply plain_no_open..].
      assert (B : existsb (has_suffix name) words = true) by (apply existsb_exists; exists w; split; [exact Hw|]; rewrite <- Eq; apply suffix_ok). congruence. }
    assert (Nest2 : forall name a, plain name -> plain a -> nesting_below 65536 (named name a)).
    { intros name a Pn Pa u v Eq. assert (C : (count LPAREN (named name a) <= 1)%nat).
      { unfold named. change (LPAREN :: a ++ [RPAREN]) with ([LPAREN] ++ a ++ [RPAREN]). rewrite !count_app, (count_plain LPAREN name Pn special_open), (count_plain LPAREN a Pa special_open). cbn. lia. }
      rewrite Eq, count_app in C. lia. }
    assert (S1 : forall s c, forallb (fun c => (c <? 128)%N) s = true -> plainb s = true -> plain_codec f s c -> any_codec_from_str p d f s = POk c).
    { intros s c A P H. apply plainb_no_open in P. apply (from_str_spec p d f Hd s); [now apply ascii_txt_check|now apply Nil|]. right. right. auto. }
    assert (S2 : forall name a c, forallb (fun c => (c <? 128)%N) (named name a) = true -> plainb name = true -> plainb a = true -> existsb (has_suffix name) (cluster_words ++ voronoi_words) = false ->
      plain_codec f (named name a) c -> any_codec_from_str p d f (named name a) = POk c).
    { intros name a c A Pn Pa Hs H. apply plainb_ok in Pn, Pa. rewrite existsb_app in Hs. apply orb_false_iff in Hs as [H1 H2].
      apply (from_str_spec p d f Hd (named name a)); [now apply ascii_txt_check|now apply Nest2|]. right. right. auto. }
    unfold fixed_rules. repeat (apply Forall2_cons); [split..|apply Forall2_nil].
    - apply S1; [reflexivity..|]. right. right. left. split; [|reflexivity]. change (r_codec _) with (txt "hufman"). repeat constructor.
    - intros fs rows. eexists. split; [reflexivity|]. apply put_same.
    - apply (S2 (txt "zip") (txt "dict")); [reflexivity..|]. right. right. right. left. auto.
    - intros fs rows. eexists. split; [reflexivity|]. apply put_same.
    - apply (S2 (txt "zip") (txt "back")); [reflexivity..|]. right. right. right. right. auto.
    - intros fs rows. eexists. split; [reflexivity|]. apply put_same.
    - apply (S2 (txt "hilbert") (txt "rle")); [reflexivity..|]. right. left. exists (txt "rle"), (RLE (f64_of_N 0)). split; [left; reflexivity|]. split; [left; auto|reflexivity].
    - intros fs rows. eexists. split; [reflexivity|]. apply put_same.
    - apply (S2 (txt "hilbert") (txt "zip")); [reflexivity..|]. right. left. exists (txt "zip"), MZip. split; [left; reflexivity|]. split; [right; right; auto|reflexivity].
    - intros fs rows. eexists. split; [reflexivity|]. apply put_same.
    - apply S1; [reflexivity..|]. left. auto.
    - intros fs rows. eexists. split; [reflexivity|]. apply put_same.
  Qed.
  Lemma cluster_makes n : (n < 2 ^ 64)%N -> makes (cluster_rule (decimal n)) (ClusterColors n).
  Proof.
    intros Hn. split.
    - cbn [cluster_rule r_codec]. change (txt "cluster-colors(" ++ decimal n ++ txt ")") with (txt "cluster-colors" ++ txt "(" ++ decimal n ++ txt ")").
      rewrite <- (decimal_number n) at 2. apply cluster_spelling; auto using decimal_digits; [cbn; tauto|now rewrite decimal_number].
    - intros fs rows. unfold recipe. cbn [cluster_rule r_copy r_target]. change (table_file show (ClusterColors n)) with (txt "output/cluster-colors_" ++ decimal n ++ txt ".csv").
      rewrite put_same. eexists. split; [reflexivity|]. apply put_same.
  Qed.
  Lemma approx_makes x v : distance x -> f x = Some v -> feq v (f64_of_N 0) = false -> show v = x -> makes (approx_rule x) (Hilbert (RLE v)).
  Proof.
    intros Hx Hv Hz Hs. split; [now apply approx_spelling|]. intros fs rows. unfold recipe. cbn [approx_rule r_copy r_target]. unfold table_file. cbn [codec_name]. rewrite Hz, Hs.
    eexists. split; [reflexivity|]. rewrite <- app_assoc. apply put_same.
  Qed.
  (** The rule for voronoi does not make its target; it makes that of another rule. *)
  Lemma voronoi_wrong n : (n < 2 ^ 64)%N ->
    any_codec_from_str p d f (r_codec (voronoi_rule (decimal n))) = POk (VoronoiCluster n)
    /\ forall fs rows, exists fs', recipe (voronoi_rule (decimal n)) (table_file show (VoronoiCluster n)) rows fs = Some fs'
       /\ fs' (r_target (voronoi_rule (decimal n))) = fs (r_target (voronoi_rule (decimal n)))
       /\ fs' (r_target (cluster_rule (decimal n))) = Some rows.
  Proof.
    intros Hn. split.
    - cbn [voronoi_rule r_codec]. rewrite <- (decimal_number n) at 2. apply voronoi_spelling; auto using decimal_digits. now rewrite decimal_number.
    - intros fs rows. unfold recipe. cbn [voronoi_rule cluster_rule r_copy r_target]. change (table_file show (VoronoiCluster n)) with (txt "output/voronoi_" ++ decimal n ++ txt ".csv").
      rewrite put_same. eexists. split; [reflexivity|]. split; [|apply put_same]. rewrite !put_other; [reflexivity| |discriminate].
      intros H. apply (f_equal (@length N)) in H. rewrite !app_length in H. cbn in H. lia.
  Qed.
End Rules.

Section Lossless.
  Variables (p : profile) (is_digit : N -> bool) (parse_f64 : text -> option f64) (show : f64 -> text) (sg : bool)
    (opens : text -> option img) (saves : text -> bool) (E : text -> env) (scan : scanner).
  Lemma lossless_jobs c : any_is_lossless c = true -> forall paths, (c = Zip ZBack -> Forall (tiny opens) paths) -> Forall (fine opens E) paths ->
    exists f0, forall E', (forall path, In path paths -> e_scan (E' path) = e_scan (E path) /\ (2 <= e_stack (E' path))%nat /\ (f0 <= e_fuel (E' path))%nat) ->
    forall path, In path paths -> exists r, job p (B754_zero sg) opens saves E E' c path = Some (Ok r) /\ feq (rec_error r) (f64_of_N 0) = true.
  Proof.
    intros Hl. induction paths as [|path paths IH]; intros Hz F; [exists 0%nat; intros E' _ path []|]. inversion F as [|? ? (im & O & Hi & Hp & Hn & He) F']; subst.
    destruct (IH (fun Ec => Forall_inv_tail (Hz Ec)) F') as [f1 H1].
    assert (Hs : (c = Zip ZBack -> 8 + 11 * pixels im <= 32767)%N).
    { intros Ec. pose proof (Forall_inv (Hz Ec)) as (im' & O' & Hs). congruence. }
    destruct (encodes (E path) c im Hl Hs Hi) as [data En]; [intros Hx; unfold pixels in Hp; destruct Hi as (_ & _ & _ & L & _); rewrite Hx in L; cbn in L; lia|exact He|].
    destruct (passes_check (E path) c im data p sg path (saves path) Hl Hi ltac:(split; [lia|unfold pixels in *; lia]) (fun _ => Hn) He En) as [f2 H2].
    exists (max f1 f2). intros E' HE q [<-|Hq].
    - destruct (HE path) as (S1 & S2 & S3); [now left|]. destruct (H2 (E' path) S1 S2 ltac:(lia)) as (ratio & e & M & Z). eexists. split; [unfold job; rewrite O; exact M|exact Z].
    - apply H1; [|exact Hq]. intros q' Hq'. destruct (HE q') as (S1 & S2 & S3); [now right|]. splits; auto. lia.
  Qed.
  Lemma lossless_run t c paths : any_codec_from_str p is_digit parse_f64 t = POk c -> any_is_lossless c = true -> (c = Zip ZBack -> Forall (tiny opens) paths) -> Forall (fine opens E) paths ->
    exists f0, forall E', (forall path, In path paths -> e_scan (E' path) = e_scan (E path) /\ (2 <= e_stack (E' path))%nat /\ (f0 <= e_fuel (E' path))%nat) ->
    let run := program p is_digit parse_f64 show (B754_zero sg) opens saves E E' scan ((txt "--codec=" ++ t) :: paths) in
    (exists out files, run out files)
    /\ forall out files, run out files -> out = Ok tt /\ exists l, files = [Table (table_file show c) (table l)] /\ Permutation (map rec_name l) paths
       /\ Forall (fun r => describes p (B754_zero sg) opens E E' c r /\ feq (rec_error r) (f64_of_N 0) = true) l.
  Proof.
    intros H Hl Hz F. destruct (lossless_jobs c Hl paths Hz F) as [f0 J]. exists f0. intros E' HE run. specialize (J E' HE). split.
    { apply run_exists with c; [exact H|]. intros path Hp. destruct (J path Hp) as (r & Hr & _). eauto. }
    intros out files P. destruct (any_run _ _ _ _ _ _ _ _ _ _ t c paths out files H P) as (rows & l & m & -> & R & Pm & D & [(-> & -> & Fm)|(_ & path & Hp & X)]).
    2: { destruct (J path Hp) as (r & Hr & _). congruence. }
    split; [reflexivity|]. exists l. split; [reflexivity|].
    assert (Hm : m = []).
    { destruct m as [|q m]; [reflexivity|exfalso]. inversion Fm as [|? ? Fq _]; subst. assert (Hq : In q paths) by (apply (Permutation_in _ Pm), in_app_iff; right; now left).
      destruct (J q Hq) as (r & Hr & Z). pose proof (job_record _ _ _ _ _ _ _ _ _ Hr) as [N Dr]. destruct r as [[[name size] ratio] e]. cbn [rec_name rec_error] in N, Z. subst name.
      destruct Dr as (im & data & y & O & En & De & _ & _ & _ & Ce). unfold fails in Fq. rewrite O in Fq. destruct Fq as [Fq|(im' & [= <-] & Fq)]; [discriminate|]. rewrite En in Fq.
      destruct Fq as [Fq|(d' & [= <-] & Fq)]; [discriminate|]. rewrite De in Fq. destruct Fq as [Fq|(y' & e' & [= <-] & Ce' & Z' & _)]; [discriminate|]. rewrite Ce in Ce'. injection Ce' as <-. congruence. }
    subst m. rewrite app_nil_r in Pm. split; [exact Pm|]. apply Forall_forall. intros r Hr. rewrite Forall_forall in D. split; [now apply D|].
    assert (Hq : In (rec_name r) paths) by (apply (Permutation_in _ Pm), in_map, Hr). destruct (J _ Hq) as (r' & Hr' & Z).
    pose proof (job_record _ _ _ _ _ _ _ _ _ Hr') as [N' Dr']. pose proof (proj1 (D _ Hr)) as Dr. destruct r as [[[name size] ratio] e], r' as [[[name' size'] ratio'] e']. cbn [rec_name rec_error] in *. subst name'.
    destruct Dr as (im & data & y & O & En & De & _ & _ & _ & Ce). destruct Dr' as (im' & data' & y' & O' & En' & De' & _ & _ & _ & Ce').
    rewrite O in O'. injection O' as <-. rewrite En in En'. injection En' as <-. rewrite De in De'. injection De' as <-. rewrite Ce in Ce'. injection Ce' as <-. exact Z.
  Qed.
End Lossless.
