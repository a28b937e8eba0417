(** * Proofs about the Makefile as a whole. *)
From Coq Require Import String Lia.
From Verif Require Import Base Prs PrsSpec PrsProofs PrsTop Regex Float Img HilbertC Select SelectSpec SelectProofs Special SpecialSpec Program ProgramSpec ProgramProofs MakeGraph MakeSpec.
Close Scope string_scope.
Open Scope list_scope.
Notation length := List.length.

Lemma create_same n fs : create n fs n = true.
Proof. unfold create. now rewrite (proj2 (text_eqb_eq n n) eq_refl). Qed.
Lemma create_other n fs f : f <> n -> create n fs f = fs f.
Proof. intros H. unfold create. destruct (text_eqb f n) eqn:E; [|reflexivity]. apply text_eqb_eq in E. contradiction. Qed.
Lemma create_mono n fs f : fs f = true -> create n fs f = true.
Proof. intros H. unfold create. rewrite H. now rewrite orb_true_r. Qed.
Lemma table_last show c : last (table_file show c) 0%N = 118%N.
Proof.
  unfold table_file. set (x := codec_name show c). change (txt ".csv") with (txt ".cs" ++ [118%N]). now rewrite !app_assoc, last_last.
Qed.

Section Make.
  Variables (p : profile) (d : N -> bool) (f : text -> option f64) (show : f64 -> text).
  Notation builds := (builds p d f show).
  Notation builds_all := (builds_all p d f show).
  Notation acts := (acts p d f show).

  Scheme builds_mind := Induction for MakeGraph.builds Sort Prop with builds_all_mind := Induction for MakeGraph.builds_all Sort Prop.

  (** ** What a set of targets cannot create *)
  Definition inb (t : text) (l : list text) : bool := existsb (text_eqb t) l.
  Lemma inb_In t l : inb t l = true <-> In t l.
  Proof.
    unfold inb. rewrite existsb_exists. split.
    - intros (x & Hx & E). apply text_eqb_eq in E. now subst.
    - intros H. exists t. split; [exact H|]. now apply text_eqb_eq.
  Qed.
  Definition harmless (W : list text) (a : action) : bool :=
    match a with
    | RunBench _ => forallb (fun w => negb (last w 0 =? 118)%N) W
    | Cp _ to | Touch to | Mkdir to | Wget to | Unzip _ to | Python _ to => negb (inb to W)
    end.
  Definition hows (t : text) : list how := match explicit_rule t with Some h => [h] | None => pattern_rules t end.
  Definition closed (L W : list text) : bool :=
    forallb (fun t => forallb (fun h : how => forallb (fun q => inb q L) (fst h) && forallb (harmless W) (snd h)) (hows t)) L.
  Definition lacks (W : list text) (fs : folder) : Prop := forall w, In w W -> fs w = false.
  Lemma create_lacks W n fs : ~ In n W -> lacks W fs -> lacks W (create n fs).
  Proof. intros H L w Hw. rewrite create_other; [now apply L|]. intros ->. contradiction. Qed.
  Lemma act_lacks W a fs fs' : harmless W a = true -> lacks W fs -> act p d f show a fs = Some fs' -> lacks W fs'.
  Proof.
    intros H L A.
    assert (K : forall n, negb (inb n W) = true -> lacks W (create n fs)).
    { intros n Hn. apply create_lacks; [|exact L]. intros I. apply inb_In in I. now rewrite I in Hn. }
    destruct a; cbn [act harmless] in *.
    - destruct (any_codec_from_str p d f codec) as [c| |]; try discriminate. destruct (fs (txt "output")); [|discriminate]. injection A as <-.
      apply create_lacks; [|exact L]. intros I. rewrite forallb_forall in H. specialize (H _ I). now rewrite table_last in H.
    - destruct (fs from); [injection A as <-; auto|discriminate].
    - injection A as <-. auto.
    - destruct (fs name); [discriminate|injection A as <-; auto].
    - injection A as <-. auto.
    - destruct (fs from); [injection A as <-; auto|discriminate].
    - destruct (fs script); [injection A as <-; auto|discriminate].
  Qed.
  Lemma acts_lacks W l : forall fs fs', forallb (harmless W) l = true -> lacks W fs -> acts l fs = Some fs' -> lacks W fs'.
  Proof.
    induction l as [|a l IH]; cbn [MakeGraph.acts forallb]; intros fs fs' H L A; [injection A as <-; exact L|]. apply andb_prop in H as [H1 H2].
    destruct (act p d f show a fs) as [fs1|] eqn:E; [|discriminate]. exact (IH fs1 fs' H2 (act_lacks W a fs fs1 H1 L E) A).
  Qed.
  Lemma builds_lacks L W : closed L W = true -> forall fs t fs', builds fs t fs' -> In t L -> lacks W fs -> lacks W fs'.
  Proof.
    intros C fs t fs' B. unfold closed in C. rewrite forallb_forall in C.
    assert (K : forall t h, In t L -> In h (hows t) -> (forall q, In q (fst h) -> In q L) /\ forallb (harmless W) (snd h) = true).
    { intros u h Hu Hh. specialize (C u Hu). rewrite forallb_forall in C. specialize (C h Hh). apply andb_prop in C as [C1 C2]. split; [|exact C2].
      rewrite forallb_forall in C1. intros q Hq. now apply inb_In, C1. }
    induction B using builds_mind with
      (P := fun fs t fs' _ => In t L -> lacks W fs -> lacks W fs')
      (P0 := fun fs ts fs' _ => (forall t, In t ts -> In t L) -> lacks W fs -> lacks W fs'); intros Ht Lk; auto.
    - destruct (K t (pre, l) Ht) as [K1 K2]; [unfold hows; rewrite e; now left|]. cbn [fst snd] in *. specialize (IHB K1 Lk).
      destruct o as [A|[_ ->]]; [exact (acts_lacks W l fs1 fs2 K2 IHB A)|exact IHB].
    - destruct (K t (pre, l) Ht) as [K1 K2]; [unfold hows; now rewrite e|]. cbn [fst snd] in *. specialize (IHB K1 Lk).
      destruct o as [A|[_ ->]]; [exact (acts_lacks W l fs1 fs2 K2 IHB A)|exact IHB].
    - apply IHB0; [intros u Hu; apply Ht; now right|]. apply IHB; [apply Ht; now left|exact Lk].
  Qed.
  Lemma builds_all_lacks L W : closed L W = true -> forall ts fs fs', builds_all fs ts fs' -> (forall t, In t ts -> In t L) -> lacks W fs -> lacks W fs'.
  Proof.
    intros C. induction ts as [|t ts IH]; intros fs fs' B H K; inversion B; subst; [exact K|]. eapply IH; [eassumption|intros u Hu; apply H; now right|].
    eapply builds_lacks; eauto. apply H. now left.
  Qed.
  Lemma builds_all_app l t l' : forall fs fs', builds_all fs (l ++ t :: l') fs' -> exists fs1 fs2, builds_all fs l fs1 /\ builds fs1 t fs2.
  Proof.
    induction l as [|u l IH]; intros fs fs' B; cbn [app] in B; inversion B; subst.
    - exists fs, fs1. split; [constructor|assumption].
    - destruct (IH _ _ H4) as (g1 & g2 & B1 & B2). exists g1, g2. split; [econstructor; eauto|exact B2].
  Qed.
  Lemma builds_two fs a b fs' : builds_all fs [a; b] fs' -> exists g, builds fs a g /\ builds g b fs'.
  Proof.
    intros B. inversion B as [|? ? ? g1 ? B1 B2]; subst. inversion B2 as [|? ? ? g2 ? B3 B4]; subst. inversion B4; subst. eauto.
  Qed.
  Lemma builds_one fs a fs' : builds_all fs [a] fs' -> builds fs a fs'.
  Proof. intros B. inversion B as [|? ? ? g1 ? B1 B2]; subst. inversion B2; subst. exact B1. Qed.
  (** A target with a rule without a pattern needs all its prerequisites. *)
  Lemma explicit_all fs t pre l fs' : explicit_rule t = Some (pre, l) -> builds fs t fs' -> exists fs1, builds_all fs pre fs1.
  Proof.
    intros E B. inversion B; subst; try congruence. rewrite E in H. injection H as <- <-. eauto.
  Qed.
  Lemma explicit_acts fs t l fs' : explicit_rule t = Some ([], l) -> builds fs t fs' -> acts l fs = Some fs' \/ (fs t = true /\ fs' = fs).
  Proof.
    intros E B. inversion B; subst; try congruence. rewrite E in H. injection H as <- <-. inversion H0; subst. assumption.
  Qed.

  (** ** Voronoi *)
  Definition vor (n : N) (ext : text) : text := txt "output/voronoi_" ++ decimal n ++ ext.
  Definition slow_codecs : list text :=
    txt "zip-back" :: map (fun n => txt "cluster-colors_" ++ decimal n) [16; 32; 64; 128; 256]%N ++ map (fun n => txt "voronoi_" ++ decimal n) [64; 128; 256; 512; 1024; 2048]%N.
  Definition around (s : text) : list text := [txt "output/" ++ s ++ txt ".csv.cp"; txt "output/" ++ s ++ txt ".csv.bak"; txt "output/" ++ s ++ txt ".csv"].
  Definition plain_tables : list text := [txt "output/Hufman.csv"; txt "output/zip-dict.csv"; txt "output/hilbert-rle.csv"; txt "output/hilbert-zip.csv"; txt "output/delta.csv"].
  Definition surroundings (n : N) : list text :=
    plain_tables ++ concat (map around (filter (fun s => negb (text_eqb s (txt "voronoi_" ++ decimal n))) slow_codecs)).
  Definition err_pre : list text := lossless_codecs ++ cluster_colors_copies ++ voronoi_copies ++ approx_tables ++ [txt "scripts/diagrams/error_vs_compression_plot.py"].
  Fixpoint before (t : text) (l : list text) : list text :=
    match l with [] => [] | u :: l => if text_eqb u t then [] else u :: before t l end.
  Lemma before_split t l : In t l -> exists l', l = before t l ++ t :: l'.
  Proof.
    induction l as [|u l IH]; intros H; [destruct H|]. cbn [before]. destruct (text_eqb u t) eqn:E.
    - apply text_eqb_eq in E. subst u. now exists l.
    - destruct H as [->|H]; [now rewrite (proj2 (text_eqb_eq t t) eq_refl) in E|]. destruct (IH H) as [l' Hl]. exists l'. cbn [app]. now f_equal.
  Qed.
  Lemma voronoi_checks n : In n voronoi_sizes ->
    closed (surroundings n) [vor n (txt ".csv.bak"); vor n (txt ".csv.cp")] = true
    /\ forallb (fun q => inb q (surroundings n)) (before (vor n (txt ".csv.cp")) err_pre) = true
    /\ In (vor n (txt ".csv.cp")) err_pre
    /\ explicit_rule (vor n (txt ".csv.cp")) = None
    /\ pattern_rules (vor n (txt ".csv.cp")) = [copy_rule (txt "voronoi_" ++ decimal n ++ txt ".csv")]
    /\ explicit_rule (vor n (txt ".csv.bak")) = None
    /\ pattern_rules (vor n (txt ".csv.bak")) = [([], bench_recipe (voronoi_rule (decimal n)))].
  Proof.
    intros H. repeat destruct H as [<-|H]; try destruct H; (split; [vm_compute; reflexivity|]); (split; [vm_compute; reflexivity|]);
      (split; [apply inb_In; vm_compute; reflexivity|]); repeat split; vm_compute; reflexivity.
  Qed.
  (** Neither file is there: they are not made, and what needs the copy fails. *)
  Lemma bak_stays fs fs' n : In n voronoi_sizes -> lacks [vor n (txt ".csv.bak"); vor n (txt ".csv.cp")] fs -> builds fs (vor n (txt ".csv.bak")) fs' ->
    lacks [vor n (txt ".csv.bak"); vor n (txt ".csv.cp")] fs'.
  Proof.
    intros Hn L B. eapply (builds_lacks [vor n (txt ".csv.bak")]); [|exact B|now left|exact L].
    repeat destruct Hn as [<-|Hn]; try destruct Hn; vm_compute; reflexivity.
  Qed.
  Lemma base_stays fs fs' n : In n voronoi_sizes -> lacks [vor n (txt ".csv.bak"); vor n (txt ".csv.cp")] fs -> builds fs (vor n (txt ".csv")) fs' ->
    lacks [vor n (txt ".csv.bak"); vor n (txt ".csv.cp")] fs'.
  Proof.
    intros Hn L B. eapply (builds_lacks [vor n (txt ".csv")]); [|exact B|now left|exact L].
    repeat destruct Hn as [<-|Hn]; try destruct Hn; vm_compute; reflexivity.
  Qed.
  Lemma vor_rule n : copy_rule (txt "voronoi_" ++ decimal n ++ txt ".csv")
    = ([vor n (txt ".csv.bak"); vor n (txt ".csv")], [Cp (vor n (txt ".csv.bak")) (vor n (txt ".csv")); Touch (vor n (txt ".csv.cp"))]).
  Proof.
    unfold copy_rule, vor. change (txt ".csv.bak") with (txt ".csv" ++ txt ".bak"). change (txt ".csv.cp") with (txt ".csv" ++ txt ".cp").
    change (txt "output/voronoi_") with (txt "output/" ++ txt "voronoi_"). now rewrite <- !app_assoc.
  Qed.
  Lemma copy_fails fs fs' n : In n voronoi_sizes -> lacks [vor n (txt ".csv.bak"); vor n (txt ".csv.cp")] fs -> ~ builds fs (vor n (txt ".csv.cp")) fs'.
  Proof.
    intros Hn L B. destruct (voronoi_checks n Hn) as (_ & _ & _ & E & P & _). inversion B; subst; try congruence.
    - rewrite (L (vor n (txt ".csv.cp"))) in H0; [discriminate|right; now left].
    - rewrite P, vor_rule in H0. destruct H0 as [H0|[]]. apply pair_equal_spec in H0 as [<- <-].
      destruct (builds_two _ _ _ _ H2) as (g & G1 & G2). pose proof (base_stays _ _ _ Hn (bak_stays _ _ _ Hn L G1) G2) as L'.
      destruct H3 as [A|[A _]].
      + cbn [MakeGraph.acts act] in A. rewrite (L' (vor n (txt ".csv.bak"))) in A; [discriminate|now left].
      + rewrite (L' (vor n (txt ".csv.cp"))) in A; [discriminate|right; now left].
  Qed.
  Lemma err_fails fs fs' n : In n voronoi_sizes -> fs (vor n (txt ".csv.bak")) = false -> fs (vor n (txt ".csv.cp")) = false -> ~ builds fs (txt "output/error_vs_compression.png") fs'.
  Proof.
    intros Hn H1 H2 B. assert (L : lacks [vor n (txt ".csv.bak"); vor n (txt ".csv.cp")] fs) by (intros w [<-|[<-|[]]]; assumption).
    destruct (voronoi_checks n Hn) as (C & S & I & _). destruct (before_split _ _ I) as [l' El].
    destruct (explicit_all fs (txt "output/error_vs_compression.png") err_pre [Python (txt "scripts/diagrams/error_vs_compression_plot.py") (txt "output/error_vs_compression.png")] fs') as [g G]; [vm_compute; reflexivity|exact B|].
    rewrite El in G. destruct (builds_all_app _ _ _ _ _ G) as (g1 & g2 & B1 & B2). eapply copy_fails; [exact Hn| |exact B2].
    eapply builds_all_lacks; [exact C|exact B1| |exact L]. rewrite forallb_forall in S. intros t Ht. now apply inb_In, S.
  Qed.
  Lemma lossy_fails fs fs' n t : In n voronoi_sizes -> fs (vor n (txt ".csv.bak")) = false -> fs (vor n (txt ".csv.cp")) = false ->
    In t [txt "diagrams"; txt "lossy_status.png"; txt "output/error_vs_compression.png"] -> ~ builds fs t fs'.
  Proof.
    intros Hn H1 H2 [<-|[<-|[<-|[]]]] B.
    - destruct (explicit_all fs (txt "diagrams") [txt "lossy_status.png"; txt "lossless_status.png"] [] fs') as [g G]; [vm_compute; reflexivity|exact B|]. inversion G; subst.
      destruct (explicit_all fs (txt "lossy_status.png") [txt "output/error_vs_compression.png"] [Cp (txt "output/error_vs_compression.png") (txt "lossy_status.png")] fs1) as [g' G']; [vm_compute; reflexivity|assumption|].
      inversion G'; subst. eapply err_fails; eauto.
    - destruct (explicit_all fs (txt "lossy_status.png") [txt "output/error_vs_compression.png"] [Cp (txt "output/error_vs_compression.png") (txt "lossy_status.png")] fs') as [g' G']; [vm_compute; reflexivity|assumption|].
      inversion G'; subst. eapply err_fails; eauto.
    - eapply err_fails; eauto.
  Qed.

  (** ** zip(back) *)
  Hypothesis Hd : digit_class_ok d.
  Lemma fixed_codec r c : In (r, c) (combine fixed_rules [Hufman; Zip ZDict; Zip ZBack; Hilbert (RLE (f64_of_N 0)); Hilbert MZip; Delta]) ->
    any_codec_from_str p d f (r_codec r) = POk c.
  Proof.
    pose proof (fixed_makes p d f show Hd) as F. revert F. generalize fixed_rules. generalize [Hufman; Zip ZDict; Zip ZBack; Hilbert (RLE (f64_of_N 0)); Hilbert MZip; Delta].
    intros cs rs F. induction F as [|r' c' rs cs M F IH]; cbn [combine In]; [tauto|]. intros [E|H]; [|auto]. injection E as <- <-. apply M.
  Qed.
  Lemma hufman_codec : any_codec_from_str p d f (txt "hufman") = POk Hufman.
  Proof. apply (fixed_codec (mkRule (txt "output/Hufman.csv") (txt "hufman") None)). now left. Qed.
  Lemma dict_codec : any_codec_from_str p d f (txt "zip(dict)") = POk (Zip ZDict).
  Proof. apply (fixed_codec (mkRule (txt "output/zip-dict.csv") (txt "zip(dict)") None)). right. now left. Qed.
  Definition zb (ext : text) : text := txt "output/zip-back.csv" ++ ext.
  Lemma zip_back_copy fs fs' : fs (zb []) = false -> fs (zb (txt ".cp")) = false -> ~ builds fs (zb (txt ".cp")) fs'.
  Proof.
    intros H1 H2 B. inversion B as [? ? E T|? ? ? ? ? ? E|? ? pre l ? ? E I P]; subst.
    - congruence.
    - vm_compute in E. discriminate.
    - assert (PR : pattern_rules (zb (txt ".cp")) = [copy_rule (txt "zip-back.csv")]) by (vm_compute; reflexivity). rewrite PR in I. destruct I as [I|[]].
      unfold copy_rule in I. apply pair_equal_spec in I as [<- _]. inversion P as [|? ? _ P']; subst. inversion P' as [|? ? Q _]; subst.
      assert (Q' : possible fs (zb [])) by exact Q. clear Q. inversion Q' as [t F E'|t M E'|t h M F E']; subst.
      + congruence.
      + vm_compute in M. discriminate.
      + assert (N : pattern_rules (zb []) = []) by (vm_compute; reflexivity). rewrite N in M. destruct M.
  Qed.
  Lemma zip_back_needed fs fs' l : fs (zb []) = false -> fs (zb (txt ".cp")) = false -> ~ builds_all fs (txt "output/Hufman.csv" :: txt "output/zip-dict.csv" :: zb (txt ".cp") :: l) fs'.
  Proof.
    intros H1 H2 B. inversion B as [|? ? ? g1 ? B1 B2]; subst. inversion B2 as [|? ? ? g2 ? B3 B4]; subst. inversion B4 as [|? ? ? g3 ? B5 _]; subst.
    assert (K : forall g g' t a c, explicit_rule t = Some ([], [RunBench a]) -> any_codec_from_str p d f a = POk c -> ~ In (table_file show c) [zb []; zb (txt ".cp")] -> builds g t g' ->
      g (zb []) = false -> g (zb (txt ".cp")) = false -> g' (zb []) = false /\ g' (zb (txt ".cp")) = false).
    { intros g g' t a c E C N Bg Z1 Z2. destruct (explicit_acts _ _ _ _ E Bg) as [A|[_ ->]]; [|auto]. cbn [MakeGraph.acts act] in A. rewrite C in A.
      destruct (g (txt "output")); [|discriminate]. injection A as <-. split; (rewrite create_other; [assumption|]); intros X; apply N; rewrite <- X; [now left|right; now left]. }
    assert (K1 : g1 (zb []) = false /\ g1 (zb (txt ".cp")) = false).
    { eapply (K fs g1 (txt "output/Hufman.csv") (txt "hufman") Hufman); [vm_compute; reflexivity|exact hufman_codec| |exact B1|exact H1|exact H2]. intros [X|[X|[]]]; vm_compute in X; discriminate. }
    assert (K2 : g2 (zb []) = false /\ g2 (zb (txt ".cp")) = false).
    { eapply (K g1 g2 (txt "output/zip-dict.csv") (txt "zip(dict)") (Zip ZDict)); [vm_compute; reflexivity|exact dict_codec| |exact B3|apply K1|apply K1]. intros [X|[X|[]]]; vm_compute in X; discriminate. }
    eapply zip_back_copy; [apply K2|apply K2|exact B5].
  Qed.
  Lemma drawing_fails fs fs' : fs (zb []) = false -> fs (zb (txt ".cp")) = false ->
    ~ builds fs (txt "output/boxplot.png") fs' /\ ~ builds fs (txt "output/error_vs_compression.png") fs'.
  Proof.
    intros H1 H2. split; intros B.
    - destruct (explicit_all fs (txt "output/boxplot.png") (lossless_codecs ++ [txt "scripts/diagrams/boxplot.py"]) [Python (txt "scripts/diagrams/boxplot.py") (txt "output/boxplot.png")] fs') as [g G]; [vm_compute; reflexivity|exact B|].
      exact (zip_back_needed _ _ _ H1 H2 G).
    - destruct (explicit_all fs (txt "output/error_vs_compression.png") err_pre [Python (txt "scripts/diagrams/error_vs_compression_plot.py") (txt "output/error_vs_compression.png")] fs') as [g G]; [vm_compute; reflexivity|exact B|].
      exact (zip_back_needed _ _ _ H1 H2 G).
  Qed.
  Lemma diagrams_fail fs fs' t : fs (zb []) = false -> fs (zb (txt ".cp")) = false ->
    In t [txt "diagrams"; txt "lossless_status.png"; txt "lossy_status.png"; txt "output/boxplot.png"; txt "output/error_vs_compression.png"] -> ~ builds fs t fs'.
  Proof.
    intros H1 H2. assert (D : forall g, ~ builds fs (txt "output/boxplot.png") g /\ ~ builds fs (txt "output/error_vs_compression.png") g) by (intros g; now apply drawing_fails).
    assert (S1 : forall g, ~ builds fs (txt "lossless_status.png") g).
    { intros g B. destruct (explicit_all fs (txt "lossless_status.png") [txt "output/boxplot.png"] [Cp (txt "output/boxplot.png") (txt "lossless_status.png")] g) as [g' G]; [vm_compute; reflexivity|exact B|].
      apply builds_one in G. exact (proj1 (D g') G). }
    assert (S2 : forall g, ~ builds fs (txt "lossy_status.png") g).
    { intros g B. destruct (explicit_all fs (txt "lossy_status.png") [txt "output/error_vs_compression.png"] [Cp (txt "output/error_vs_compression.png") (txt "lossy_status.png")] g) as [g' G]; [vm_compute; reflexivity|exact B|].
      apply builds_one in G. exact (proj2 (D g') G). }
    intros [<-|[<-|[<-|[<-|[<-|[]]]]]] B; [|exact (S1 _ B)|exact (S2 _ B)|exact (proj1 (D _) B)|exact (proj2 (D _) B)].
    destruct (explicit_all fs (txt "diagrams") [txt "lossy_status.png"; txt "lossless_status.png"] [] fs') as [g G]; [vm_compute; reflexivity|exact B|].
    destruct (builds_two _ _ _ _ G) as (g1 & G1 & _). exact (S2 _ G1).
  Qed.

  (** ** What is enough *)
  Definition grows (fs fs' : folder) : Prop := forall t, fs t = true -> fs' t = true.
  Definition ready (need : list text) (t : text) : Prop := forall fs, stocked need fs -> exists fs', builds fs t fs' /\ grows fs fs'.
  Lemma stocked_grows need fs fs' : stocked need fs -> grows fs fs' -> stocked need fs'.
  Proof. intros S G t Ht. auto. Qed.
  Lemma ready_all need ts : Forall (ready need) ts -> forall fs, stocked need fs -> exists fs', builds_all fs ts fs' /\ grows fs fs'.
  Proof.
    induction 1 as [|t ts R F IH]; intros fs S; [exists fs; split; [constructor|intros t Ht; exact Ht]|].
    destruct (R fs S) as (g & B & G). destruct (IH g (stocked_grows _ _ _ S G)) as (g' & B' & G'). exists g'. split; [econstructor; eauto|]. intros u Hu. auto.
  Qed.
  Lemma ready_table need t a c : explicit_rule t = Some ([], [RunBench a]) -> any_codec_from_str p d f a = POk c -> In (txt "output") need -> ready need t.
  Proof.
    intros E C I fs S. exists (create (table_file show c) fs). split; [|intros u; apply create_mono].
    eapply builds_explicit; [exact E|constructor|]. left. cbn [MakeGraph.acts act]. now rewrite C, (S _ I).
  Qed.
  Lemma ready_approx need x v : distance x -> f x = Some v -> explicit_rule (r_target (approx_rule x)) = None -> In ([], bench_recipe (approx_rule x)) (pattern_rules (r_target (approx_rule x))) ->
    In (txt "output") need -> ready need (r_target (approx_rule x)).
  Proof.
    intros Dx Fx E P I fs S. exists (create (table_file show (Hilbert (RLE v))) fs). split; [|intros u; apply create_mono].
    eapply builds_pattern; [exact E|exact P|constructor|constructor|]. left. cbn [bench_recipe approx_rule r_copy r_codec MakeGraph.acts act].
    change (txt "hilbert(rle(" ++ x ++ txt "))") with (r_codec (approx_rule x)). cbn [approx_rule r_codec]. rewrite (approx_spelling p d f show Hd x v Dx Fx), (S _ I). reflexivity.
  Qed.
  Lemma ready_source need t : explicit_rule t = None -> In t need -> ready need t.
  Proof. intros E I fs S. exists fs. split; [apply builds_source; auto|intros u Hu; exact Hu]. Qed.
  Lemma ready_there need t l : explicit_rule t = Some ([], l) -> In t need -> ready need t.
  Proof. intros E I fs S. exists fs. split; [eapply builds_explicit; [exact E|constructor|]; right; auto|intros u Hu; exact Hu]. Qed.
  Lemma ready_copy need s : let t := txt "output/" ++ s ++ txt ".cp" in explicit_rule t = None -> In (copy_rule s) (pattern_rules t) ->
    ready need (txt "output/" ++ s ++ txt ".bak") -> ready need (txt "output/" ++ s) -> In (txt "output/" ++ s ++ txt ".bak") need -> In (txt "output/" ++ s) need -> ready need t.
  Proof.
    intros t E P R1 R2 I1 I2 fs S. destruct (ready_all need [txt "output/" ++ s ++ txt ".bak"; txt "output/" ++ s]) with (fs := fs) as (g & B & G); [repeat constructor; assumption|exact S|].
    eexists. split.
    - eapply builds_pattern; [exact E|exact P| |exact B|].
      + constructor; [apply possible_file; auto|constructor; [apply possible_file; auto|constructor]].
      + left. cbn [MakeGraph.acts act]. rewrite (stocked_grows _ _ _ S G _ I1). reflexivity.
    - intros u Hu. apply create_mono, create_mono. auto.
  Qed.
  (** The status of the lossless codecs *)
  Definition lossless_need : list text := [txt "output"; zb []; zb (txt ".bak"); txt "scripts/diagrams/boxplot.py"].
  Lemma lossless_ready need : incl [txt "output"; zb []; zb (txt ".bak")] need -> Forall (ready need) lossless_codecs.
  Proof.
    intros H. assert (I : In (txt "output") need) by (apply H; now left).
    assert (Fx : forall r c, In (r, c) (combine fixed_rules [Hufman; Zip ZDict; Zip ZBack; Hilbert (RLE (f64_of_N 0)); Hilbert MZip; Delta]) -> r_copy r = None -> explicit_rule (r_target r) = Some ([], bench_recipe r) -> ready need (r_target r)).
    { intros r c Hr Hc E. unfold bench_recipe in E. rewrite Hc in E. eapply ready_table; [exact E|exact (fixed_codec _ _ Hr)|exact I]. }
    unfold lossless_codecs. repeat apply Forall_cons; [| | | | | |constructor].
    - apply (Fx (mkRule (txt "output/Hufman.csv") (txt "hufman") None) Hufman); [now left|reflexivity|vm_compute; reflexivity].
    - apply (Fx (mkRule (txt "output/zip-dict.csv") (txt "zip(dict)") None) (Zip ZDict)); [right; now left|reflexivity|vm_compute; reflexivity].
    - apply (ready_copy need (txt "zip-back.csv")); [vm_compute; reflexivity|apply in_eq| | |apply H; right; right; now left|apply H; right; now left].
      + eapply ready_there; [vm_compute; reflexivity|]. apply H. right; right; now left.
      + apply ready_source; [vm_compute; reflexivity|]. apply H. right. now left.
    - apply (Fx (mkRule (txt "output/hilbert-rle.csv") (txt "hilbert(rle)") None) (Hilbert (RLE (f64_of_N 0)))); [do 3 right; now left|reflexivity|vm_compute; reflexivity].
    - apply (Fx (mkRule (txt "output/hilbert-zip.csv") (txt "hilbert(zip)") None) (Hilbert MZip)); [do 4 right; now left|reflexivity|vm_compute; reflexivity].
    - apply (Fx (mkRule (txt "output/delta.csv") (txt "delta") None) Delta); [do 5 right; now left|reflexivity|vm_compute; reflexivity].
  Qed.
  Lemma drawn need t pre script : explicit_rule t = Some (pre ++ [script], [Python script t]) -> Forall (ready need) pre -> explicit_rule script = None -> In script need ->
    forall fs, stocked need fs -> exists fs', builds fs t fs' /\ grows fs fs' /\ fs' t = true.
  Proof.
    intros E F Es I fs S. destruct (ready_all need (pre ++ [script])) with (fs := fs) as (g & B & G); [apply Forall_app; split; [exact F|repeat constructor; now apply ready_source]|exact S|].
    exists (create t g). split; [|split; [intros u Hu; apply create_mono; auto|apply create_same]].
    eapply builds_explicit; [exact E|exact B|]. left. cbn [MakeGraph.acts act]. now rewrite (stocked_grows _ _ _ S G _ I).
  Qed.
  Lemma copied need t drawing : explicit_rule t = Some ([drawing], [Cp drawing t]) -> (forall fs, stocked need fs -> exists fs', builds fs drawing fs' /\ grows fs fs' /\ fs' drawing = true) ->
    forall fs, stocked need fs -> exists fs', builds fs t fs' /\ grows fs fs' /\ fs' t = true.
  Proof.
    intros E D fs S. destruct (D fs S) as (g & B & G & T). exists (create t g). split; [|split; [intros u Hu; apply create_mono; auto|apply create_same]].
    eapply builds_explicit; [exact E|econstructor; [exact B|constructor]|]. left. cbn [MakeGraph.acts act]. now rewrite T.
  Qed.
  Lemma lossless_status need : incl lossless_need need -> forall fs, stocked need fs -> exists fs', builds fs (txt "lossless_status.png") fs' /\ grows fs fs' /\ fs' (txt "lossless_status.png") = true.
  Proof.
    intros H. apply copied with (txt "output/boxplot.png"); [vm_compute; reflexivity|].
    apply drawn with lossless_codecs (txt "scripts/diagrams/boxplot.py"); [vm_compute; reflexivity| |vm_compute; reflexivity|apply H; do 3 right; now left].
    apply lossless_ready. intros t Ht. apply H. cbn in *. tauto.
  Qed.
  (** Everything *)
  Definition diagrams_need : list text :=
    lossless_need ++ [txt "scripts/diagrams/error_vs_compression_plot.py"]
    ++ concat (map (fun s => [txt "output/" ++ s ++ txt ".csv.bak"; txt "output/" ++ s ++ txt ".csv"]) (tl slow_codecs)).
  Lemma slow_ready need s : let t := txt "output/" ++ (s ++ txt ".csv") ++ txt ".cp" in
    explicit_rule t = None -> inb t voronoi_copies || inb t cluster_colors_copies = true -> In (copy_rule (s ++ txt ".csv")) (pattern_rules t) ->
    explicit_rule (txt "output/" ++ (s ++ txt ".csv") ++ txt ".bak") = None -> explicit_rule (txt "output/" ++ s ++ txt ".csv") = None ->
    In (txt "output/" ++ (s ++ txt ".csv") ++ txt ".bak") need -> In (txt "output/" ++ s ++ txt ".csv") need -> ready need t.
  Proof. intros t E _ P E1 E2 I1 I2. apply ready_copy; auto using ready_source. Qed.
  Lemma all_diagrams fs : (forall x, In x approx_sizes -> exists v, f x = Some v) -> stocked diagrams_need fs ->
    exists fs', builds fs (txt "diagrams") fs' /\ fs' (txt "lossless_status.png") = true /\ fs' (txt "lossy_status.png") = true.
  Proof.
    intros Fx S. assert (H : incl lossless_need diagrams_need) by (intros t Ht; apply in_or_app; now left).
    assert (LL : Forall (ready diagrams_need) lossless_codecs) by (apply lossless_ready; intros t Ht; apply H; cbn in *; tauto).
    assert (O : In (txt "output") diagrams_need) by (apply H; now left).
    assert (CC : Forall (ready diagrams_need) (cluster_colors_copies ++ voronoi_copies)).
    { assert (K : forallb (fun s => inb (txt "output/" ++ (s ++ txt ".csv") ++ txt ".bak") diagrams_need && inb (txt "output/" ++ s ++ txt ".csv") diagrams_need) (tl slow_codecs) = true) by (vm_compute; reflexivity).
      rewrite forallb_forall in K.
      assert (K' : forall s, In s (tl slow_codecs) -> explicit_rule (txt "output/" ++ (s ++ txt ".csv") ++ txt ".cp") = None -> In (copy_rule (s ++ txt ".csv")) (pattern_rules (txt "output/" ++ (s ++ txt ".csv") ++ txt ".cp")) ->
        explicit_rule (txt "output/" ++ (s ++ txt ".csv") ++ txt ".bak") = None -> explicit_rule (txt "output/" ++ s ++ txt ".csv") = None -> ready diagrams_need (txt "output/" ++ (s ++ txt ".csv") ++ txt ".cp")).
      { intros s Hs E1 P E2 E3. specialize (K s Hs). apply andb_prop in K as [K1 K2]. apply inb_In in K1, K2. apply ready_copy; auto using ready_source. }
      assert (EQ : cluster_colors_copies ++ voronoi_copies = map (fun s => txt "output/" ++ (s ++ txt ".csv") ++ txt ".cp") (tl slow_codecs)) by (vm_compute; reflexivity).
      rewrite EQ. apply Forall_map, Forall_forall. intros s Hs. apply K'; [exact Hs|..]; clear - Hs; cbn in Hs; repeat destruct Hs as [<-|Hs]; try destruct Hs; try (vm_compute; reflexivity); apply in_or_app; left; vm_compute; now left. }
    assert (AA : Forall (ready diagrams_need) approx_tables).
    { change approx_tables with (map (fun x => r_target (approx_rule x)) approx_sizes). apply Forall_map, Forall_forall. intros x Hx. destruct (Fx x Hx) as [v Hv].
      apply ready_approx with v; auto; clear - Hx; cbn in Hx; repeat destruct Hx as [<-|Hx]; try destruct Hx; try (vm_compute; reflexivity);
        try (split; [discriminate|repeat constructor; cbn; lia]); vm_compute; now left. }
    destruct (copied diagrams_need (txt "lossy_status.png") (txt "output/error_vs_compression.png")) with (fs := fs) as (g & B & G & T); [vm_compute; reflexivity| |exact S|].
    { apply drawn with (lossless_codecs ++ cluster_colors_copies ++ voronoi_copies ++ approx_tables) (txt "scripts/diagrams/error_vs_compression_plot.py");
        [vm_compute; reflexivity| |vm_compute; reflexivity|apply in_or_app; right; now left].
      apply Forall_app in CC as [C1 C2]. repeat (apply Forall_app; split); assumption. }
    destruct (lossless_status diagrams_need H g (stocked_grows _ _ _ S G)) as (g' & B' & G' & T').
    exists g'. split; [|split; [exact T'|auto]]. eapply builds_explicit; [vm_compute; reflexivity|econstructor; [exact B|econstructor; [exact B'|constructor]]|]. left. reflexivity.
  Qed.
  (** ** The data *)
  Lemma all_fails fs fs' : fs (txt "data/DIV2K_valid_HR") = false -> fs (txt "data/DIV2K_valid_HR.zip") = false -> ~ builds fs (txt "all") fs'.
  Proof.
    intros H1 H2 B. destruct (explicit_all fs (txt "all") [txt "data"; txt "output"; txt "data/DIV2K_valid_HR"] [] fs') as [g G]; [vm_compute; reflexivity|exact B|].
    destruct (builds_all_app [txt "data"; txt "output"] (txt "data/DIV2K_valid_HR") [] _ _ G) as (g1 & g2 & B1 & B2).
    assert (L : lacks [txt "data/DIV2K_valid_HR"; txt "data/DIV2K_valid_HR.zip"] g1).
    { eapply (builds_all_lacks [txt "data"; txt "output"]); [vm_compute; reflexivity|exact B1|auto|]. intros w [<-|[<-|[]]]; assumption. }
    destruct (explicit_acts g1 (txt "data/DIV2K_valid_HR") [Unzip (txt "data/DIV2K_valid_HR.zip") (txt "data/DIV2K_valid_HR")] g2) as [A|[A _]]; [vm_compute; reflexivity|exact B2| |].
    - cbn [MakeGraph.acts act] in A. rewrite (L (txt "data/DIV2K_valid_HR.zip")) in A; [discriminate|right; now left].
    - rewrite (L (txt "data/DIV2K_valid_HR")) in A; [discriminate|now left].
  Qed.
  Lemma all_works fs : fs (txt "data/DIV2K_valid_HR") = true \/ fs (txt "data/DIV2K_valid_HR.zip") = true -> exists fs', builds fs (txt "all") fs'.
  Proof.
    intros Z. assert (M : forall n g, explicit_rule n = Some ([], [Mkdir n]) -> exists g', builds g n g' /\ grows g g').
    { intros n g E. destruct (g n) eqn:X.
      - exists g. split; [eapply builds_explicit; [exact E|constructor|]; now right|intros u Hu; exact Hu].
      - exists (create n g). split; [eapply builds_explicit; [exact E|constructor|]; left; cbn [MakeGraph.acts act]; now rewrite X|]. intros u. apply create_mono. }
    destruct (M (txt "data") fs) as (g1 & B1 & G1); [vm_compute; reflexivity|]. destruct (M (txt "output") g1) as (g2 & B2 & G2); [vm_compute; reflexivity|].
    assert (D : exists g3, builds g2 (txt "data/DIV2K_valid_HR") g3).
    { destruct Z as [Z|Z]; eexists; (apply (builds_explicit p d f show g2 (txt "data/DIV2K_valid_HR") [] [Unzip (txt "data/DIV2K_valid_HR.zip") (txt "data/DIV2K_valid_HR")] g2); [vm_compute; reflexivity|constructor|]).
      - right. split; [exact (G2 _ (G1 _ Z))|reflexivity].
      - left. cbn [MakeGraph.acts act]. now rewrite (G2 _ (G1 _ Z)). }
    destruct D as [g3 B3]. exists g3. eapply builds_explicit; [vm_compute; reflexivity| |left; reflexivity].
    econstructor; [exact B1|econstructor; [exact B2|econstructor; [exact B3|constructor]]].
  Qed.
End Make.
(** ** The statements *)
Lemma lossless_enough p d f show : digit_class_ok d -> forall fs,
  stocked [txt "output"; txt "output/zip-back.csv"; txt "output/zip-back.csv.bak"; txt "scripts/diagrams/boxplot.py"] fs ->
  exists fs', builds p d f show fs (txt "lossless_status.png") fs' /\ fs' (txt "lossless_status.png") = true.
Proof.
  intros Hd fs S. destruct (lossless_status p d f show Hd _ (incl_refl _) fs S) as (g & B & _ & T). eauto.
Qed.
Lemma diagrams_enough p d f show : digit_class_ok d -> (forall x, In x approx_sizes -> exists v, f x = Some v) -> forall fs,
  stocked ([txt "output"; txt "output/zip-back.csv"; txt "output/zip-back.csv.bak"; txt "scripts/diagrams/boxplot.py"; txt "scripts/diagrams/error_vs_compression_plot.py"]
           ++ slow_tables ++ map (fun t => t ++ txt ".bak") slow_tables) fs ->
  exists fs', builds p d f show fs (txt "diagrams") fs' /\ fs' (txt "lossless_status.png") = true /\ fs' (txt "lossy_status.png") = true.
Proof.
  intros Hd Fx fs S. apply all_diagrams; auto. intros t Ht. apply S.
  assert (K : forallb (fun q => inb q ([txt "output"; txt "output/zip-back.csv"; txt "output/zip-back.csv.bak"; txt "scripts/diagrams/boxplot.py"; txt "scripts/diagrams/error_vs_compression_plot.py"]
           ++ slow_tables ++ map (fun t => t ++ txt ".bak") slow_tables)) diagrams_need = true) by (vm_compute; reflexivity).
  rewrite forallb_forall in K. now apply inb_In, K.
Qed.
Lemma all_iff p d f show fs : (exists fs', builds p d f show fs (txt "all") fs') <-> fs (txt "data/DIV2K_valid_HR") = true \/ fs (txt "data/DIV2K_valid_HR.zip") = true.
Proof.
  split; [|apply all_works]. intros [fs' B]. destruct (fs (txt "data/DIV2K_valid_HR")) eqn:H1; [now left|]. destruct (fs (txt "data/DIV2K_valid_HR.zip")) eqn:H2; [now right|].
  exfalso. eapply all_fails; eauto.
Qed.
