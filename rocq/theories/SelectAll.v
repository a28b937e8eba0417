(** * The choice of a codec for all texts (C49). *)
From Coq Require Import String.
From Verif Require Import Base Prs PrsSpec PrsProofs PrsTop PrsWideSpec PrsWide PrsDeepSpec PrsDeep Regex RegexProofs Img Float HilbertC Select SelectSpec SelectProofs Main SelectTop SelectAllSpec.
Close Scope string_scope.
Open Scope list_scope.
Notation length := List.length.

(** ** Numbers *)
Lemma parse_digits_ascii s : forall acc n, parse_digits acc s = Ok n -> Forall (fun c => 48 <= c <= 57)%N s.
Proof.
  induction s as [|c s IH]; intros acc n H; [constructor|]. cbn [parse_digits] in H. unfold ascii_digit in H. destruct (N.leb_spec 48 c); [|discriminate].
  destruct (N.leb_spec c 57); [|discriminate]. cbn [andb] in H. destruct (_ <? _)%N; [|discriminate]. constructor; [lia|]. now apply (IH _ _ H).
Qed.
Section Numbers.
  Variables (d : N -> bool) (words : list text) (r : re).
  Hypothesis Hd : digit_class_ok d.
  Hypothesis Hr : number_re d words r.
  Hypothesis Hwords : Forall (fun w => ~ In LPAREN w) words.

  Lemma class_no_paren ds : Forall (fun c => d c = true) ds -> ~ In RPAREN ds.
  Proof. intros H I. rewrite Forall_forall in H. apply H in I. rewrite (Hd RPAREN) in I; [discriminate|reflexivity]. Qed.
  Lemma class_unique s ds ds' : first_class d words s ds -> first_class d words s ds' -> ds = ds'.
  Proof.
    intros (pre & H & M) (pre' & H' & M'). assert (L : length pre = length pre') by (specialize (M _ _ H'); specialize (M' _ _ H); lia).
    destruct H as ((_ & D) & wd & post & Hw & E), H' as ((_ & D') & wd' & post' & Hw' & E').
    rewrite E in E'. assert (P : pre = pre' /\ wd ++ LPAREN :: ds ++ RPAREN :: post = wd' ++ LPAREN :: ds' ++ RPAREN :: post').
    { clear - E' L. revert pre' L E'. induction pre as [|c pre IH]; intros [|c' pre'] L E; cbn in L; try discriminate; [auto|].
      cbn [app] in E. injection E as <- E. injection L as L. destruct (IH pre' L E) as [-> ?]. auto. }
    destruct P as [_ P]. apply (number_unique words Hwords wd ds post wd' ds' post'); auto using class_no_paren.
  Qed.
  Lemma class_ways s pre ds rest : s = pre ++ rest -> class_at d words s pre ds -> exists wd post, forall st, In (mkWay (wd ++ LPAREN :: ds ++ [RPAREN]) post [Some ds]) (ways r st rest).
  Proof. intros E ((N & D) & wd & post & Hw & E'). rewrite E in E'. apply app_inv_head in E'. exists wd, post. intros st. apply Hr. exists wd, ds, post. splits; auto. Qed.
  Lemma usize_class ds n : ds <> [] -> Forall (fun c => d c = true) ds -> usize_from_str ds = Ok n -> Forall (fun c => 48 <= c <= 57)%N ds.
  Proof.
    intros N H. unfold usize_from_str. destruct ds as [|c [|c2 ds]]; [congruence| |].
    - destruct ((c =? 43) || (c =? 45))%N; [discriminate|]. apply parse_digits_ascii.
    - inversion_clear H as [|? ? H1 _]. destruct (N.eqb_spec c 43) as [->|_]; [rewrite (Hd 43%N) in H1; [discriminate|reflexivity]|]. apply parse_digits_ascii.
  Qed.
  Lemma any_number_spec s : (forall n, number_in r s = POk n <-> any_numbered d words s n) /\ number_in r s <> PPanic.
  Proof.
    split; [|now apply (number_in_no_panic d words r Hr)]. intros n. unfold number_in, captures. destruct (search r true s) as [w|] eqn:S.
    - apply search_some in S as (pre & rest & l & E & W & M). assert (I : In w (ways r (at_start true pre) rest)) by (rewrite W; now left).
      apply Hr in I as (wd & ds & post & Hw & E2 & N & A & ->). cbn [opt_or pbind length Nat.eqb negb nth_error wy_taken wy_groups].
      assert (F : first_class d words s ds).
      { exists pre. split; [split; [now split|]; exists wd, post; split; [exact Hw|]; now rewrite E, E2|]. intros pre' ds' A'.
        destruct (Nat.le_gt_cases (length pre) (length pre')) as [L|L]; [exact L|]. exfalso.
        pose proof A' as (_ & wd' & post' & _ & E'). specialize (M pre' _ E' L). destruct (class_ways s pre' ds' _ E' A') as (wd2 & post2 & I2).
        specialize (I2 (at_start true pre')). rewrite M in I2. destruct I2. }
      split.
      + destruct (usize_from_str ds) as [v| |] eqn:U; cbn [or_other]; try discriminate. intros Q. injection Q as <-. pose proof (usize_class ds v N A U) as D.
        rewrite (usize_digits ds N D) in U. change (dec_value 0 ds) with (number ds) in U. destruct (N.ltb_spec (number ds) (2 ^ 64)); [|discriminate]. injection U as <-.
        exists ds. splits; auto. now split.
      + intros (ds' & F' & [N' D'] & <- & L). rewrite (class_unique s ds' ds F' F) in *. rewrite (usize_digits ds N D'). change (dec_value 0 ds) with (number ds).
        apply N.ltb_lt in L. now rewrite L.
    - cbn. split; [discriminate|]. intros (ds & (pre & A & _) & _). exfalso.
      pose proof A as (_ & wd & post & _ & E). pose proof (search_none r s true S pre _ E) as W. destruct (class_ways s pre ds _ E A) as (wd2 & post2 & I).
      specialize (I (at_start true pre)). rewrite W in I. destruct I.
  Qed.
End Numbers.

(** ** The argument parser *)
Lemma fun_call_all p s : (forall n a, fun_call p s = Ok (n, a) <-> accepted p s n a) /\ (fun_call p s = Panic <-> aborted p s).
Proof.
  unfold accepted, aborted. destruct p.
  - destruct (all_debug s) as [A B]. split; [|rewrite B; tauto]. intros n a. rewrite A. split; [tauto|]. intros [H|[H _]]; [tauto|discriminate].
  - destruct (all_release s) as [A B]. split; [intros n a; rewrite A; tauto|]. rewrite B. split; [tauto|]. intros [H|[H _]]; [tauto|discriminate].
Qed.
Lemma accepted_paren p s n a : accepted p s n a -> In LPAREN s.
Proof.
  intros [(_ & H & _)|(_ & name & args & tail & (cur & (E & _) & _) & _)]; [now apply call_name_paren in H|].
  rewrite E. apply in_app_iff. right. now left.
Qed.
Lemma aborted_paren p s : aborted p s -> In LPAREN s.
Proof.
  intros [(name & args & rest & (E & _) & _)|(_ & name & args & tail & (cur & (E & _) & _))]; rewrite E; apply in_app_iff; right; now left.
Qed.

Section All.
  Variables (p : profile) (d : N -> bool) (parse_f64 : text -> option f64).
  Hypothesis Hd : digit_class_ok d.

  Lemma any_cluster s : (forall c, cluster_from_str d s = POk c <-> exists n, any_numbered d cluster_words s n /\ c = ClusterColors n) /\ cluster_from_str d s <> PPanic.
  Proof.
    destruct (any_number_spec d cluster_words (cluster_re d) Hd (cluster_number d) cluster_words_ok s) as [S P]. unfold cluster_from_str.
    destruct (number_in (cluster_re d) s) as [n| |] eqn:Q; [| |congruence]; cbn [pbind]; (split; [|discriminate]); intros c.
    - split; [intros E; injection E as <-; exists n; split; [now apply S|reflexivity]|]. intros (n' & H & ->). apply S in H. now injection H as ->.
    - split; [discriminate|]. intros (n' & H & ->). apply S in H. discriminate.
  Qed.
  Lemma any_voronoi s : (forall c, voronoi_from_str d s = POk c <-> exists n, any_numbered d voronoi_words s n /\ c = VoronoiCluster n) /\ voronoi_from_str d s <> PPanic.
  Proof.
    destruct (any_number_spec d voronoi_words (voronoi_re d) Hd (voronoi_number d) voronoi_words_ok s) as [S P]. unfold voronoi_from_str.
    destruct (number_in (voronoi_re d) s) as [n| |] eqn:Q; [| |congruence]; cbn [pbind]; (split; [|discriminate]); intros c.
    - split; [intros E; injection E as <-; exists n; split; [now apply S|reflexivity]|]. intros (n' & H & ->). apply S in H. now injection H as ->.
    - split; [discriminate|]. intros (n' & H & ->). apply S in H. discriminate.
  Qed.
  Lemma no_paren_rle : ~ In LPAREN (txt "rle"). Proof. now apply plainb_no_open. Qed.
  Lemma method_all a : (forall m, method_from_str p parse_f64 a = POk m <-> any_method p parse_f64 a m)
    /\ (method_from_str p parse_f64 a = PPanic <-> aborted p a \/ accepted p a (txt "rle") []).
  Proof.
    destruct (fun_call_all p a) as [Acc Abo]. rewrite method_order. unfold parse_rle, parse_zip, any_method.
    assert (ZR : a = txt "zip" \/ a = txt "rle" -> forall n l, ~ accepted p a n l).
    { intros H n l K. apply accepted_paren in K. destruct H as [->| ->]; revert K; now apply plainb_no_open. }
    assert (ZA : a = txt "zip" \/ a = txt "rle" -> ~ aborted p a).
    { intros H K. apply aborted_paren in K. destruct H as [->| ->]; revert K; now apply plainb_no_open. }
    destruct (matches_fully a (lit (txt "rle"))) as [t|] eqn:M.
    { apply full_lit in M as [-> _]. cbn [pbind]. split.
      - intros m. split; [intros E; injection E as <-; now left|]. intros [[_ ->]|[(x & v & K & _)|[E _]]]; [reflexivity| |discriminate]. exfalso. revert K. apply ZR. now right.
      - split; [discriminate|]. intros [K|K]; exfalso; revert K; [apply ZA|apply ZR]; now right. }
    apply full_lit_none in M. destruct (matches_fully a (lit (txt "zip"))) as [t|] eqn:Z.
    - apply full_lit in Z as [Z _]. assert (F : fun_call p a = Err).
      { destruct (fun_call p a) as [[n l]| |] eqn:F; [|reflexivity|].
        - exfalso. apply (ZR (or_introl Z) n l). now apply Acc.
        - exfalso. apply (ZA (or_introl Z)). now apply Abo. }
      rewrite F. cbn [or_other pbind]. split.
      + intros m. split; [intros E; injection E as <-; auto|]. intros [[E _]|[(x & v & K & _)|[_ ->]]]; [contradiction| |reflexivity]. exfalso. revert K. apply ZR. now left.
      + split; [discriminate|]. intros [K|K]; exfalso; revert K; [apply ZA|apply ZR]; now left.
    - apply full_lit_none in Z. destruct (fun_call p a) as [[n l]| |] eqn:F.
      + assert (K := proj1 (Acc n l) eq_refl).
        assert (U : forall n' l', accepted p a n' l' -> n' = n /\ l' = l) by (intros n' l' K'; apply Acc in K'; now injection K' as -> ->).
        assert (NA : ~ aborted p a) by (intros K'; apply Abo in K'; discriminate). cbn [or_other pbind].
        destruct (matches_fully n (lit (txt "rle"))) as [t|] eqn:M2.
        * apply full_lit in M2 as [-> _]. cbn [opt_or pbind]. destruct l as [|x [|x2 l]]; cbn [length Nat.ltb Nat.leb pbind].
          -- split; [|split; auto]. intros m. split; [discriminate|]. intros [[E _]|[(x & v & K' & _)|[E _]]]; try contradiction. apply U in K' as [_ K']. discriminate.
          -- destruct (parse_f64 x) as [v|] eqn:V; cbn [opt_or pbind].
             ++ split.
                ** intros m. split; [intros E; injection E as <-; right; left; exists x, v; auto|]. intros [[E _]|[(x' & v' & K' & V' & ->)|[E _]]]; try contradiction.
                   apply U in K' as [_ K']. injection K' as ->. congruence.
                ** split; [discriminate|]. intros [K'|K']; [contradiction|]. apply U in K' as [_ K']. discriminate.
             ++ split.
                ** intros m. split; [discriminate|]. intros [[E _]|[(x' & v' & K' & V' & ->)|[E _]]]; try contradiction. apply U in K' as [_ K']. injection K' as ->. congruence.
                ** split; [discriminate|]. intros [K'|K']; [contradiction|]. apply U in K' as [_ K']. discriminate.
          -- split.
             ++ intros m. split; [discriminate|]. intros [[E _]|[(x' & v' & K' & _)|[E _]]]; try contradiction. apply U in K' as [_ K']. discriminate.
             ++ split; [discriminate|]. intros [K'|K']; [contradiction|]. apply U in K' as [_ K']. discriminate.
        * apply full_lit_none in M2. cbn [opt_or pbind]. split.
          -- intros m. split; [discriminate|]. intros [[E _]|[(x' & v' & K' & _)|[E _]]]; try contradiction. apply U in K' as [K' _]. congruence.
          -- split; [discriminate|]. intros [K'|K']; [contradiction|]. apply U in K' as [K' _]. congruence.
      + assert (NK : forall n l, ~ accepted p a n l) by (intros n l K; apply Acc in K; discriminate).
        assert (NA : ~ aborted p a) by (intros K'; apply Abo in K'; discriminate). cbn [or_other pbind]. split.
        * intros m. split; [discriminate|]. intros [[E _]|[(x' & v' & K' & _)|[E _]]]; try contradiction. now apply NK in K'.
        * split; [discriminate|]. intros [K'|K']; [contradiction|]. now apply NK in K'.
      + assert (NK : forall n l, ~ accepted p a n l) by (intros n l K; apply Acc in K; discriminate).
        cbn [or_other pbind]. split.
        * intros m. split; [discriminate|]. intros [[E _]|[(x' & v' & K' & _)|[E _]]]; try contradiction. now apply NK in K'.
        * split; [|reflexivity]. intros _. left. now apply Abo.
  Qed.
  Lemma hilbert_all s : (forall c, hilbert_from_str p parse_f64 s = POk c <-> exists h a m, In h hilbert_names /\ accepted p s h [a] /\ any_method p parse_f64 a m /\ c = Hilbert m)
    /\ (hilbert_from_str p parse_f64 s = PPanic <-> aborted p s \/ exists h a, In h hilbert_names /\ accepted p s h [a] /\ (aborted p a \/ accepted p a (txt "rle") [])).
  Proof.
    destruct (fun_call_all p s) as [Acc Abo]. unfold hilbert_from_str. destruct (fun_call p s) as [[h l]| |] eqn:F.
    - assert (K := proj1 (Acc h l) eq_refl).
      assert (U : forall n' l', accepted p s n' l' -> n' = h /\ l' = l) by (intros n' l' K'; apply Acc in K'; now injection K' as -> ->).
      assert (NA : ~ aborted p s) by (intros K'; apply Abo in K'; discriminate). cbn [or_other pbind].
      destruct (matches_fully h hilbert_re) as [t|] eqn:M.
      + apply hilbert_full in M as [_ Hh]. assert (Hi : In h hilbert_names) by (unfold hilbert_names; cbn; intuition). cbn [opt_or pbind].
        destruct l as [|a [|a2 l]]; cbn [length Nat.eqb negb].
        * split; [intros c; split; [discriminate|]|split; [discriminate|]].
          -- intros (h' & a' & m & _ & K' & _). apply U in K' as [_ K']. discriminate.
          -- intros [K'|(h' & a' & _ & K' & _)]; [contradiction|]. apply U in K' as [_ K']. discriminate.
        * destruct (method_all a) as [MS MP]. split; [intros c; split|split].
          -- destruct (method_from_str p parse_f64 a) as [m| |] eqn:Q; cbn [pbind]; try discriminate. intros E. injection E as <-. exists h, a, m. splits; auto. now apply MS.
          -- intros (h' & a' & m & _ & K' & Hm & ->). apply U in K' as [_ K']. injection K' as ->. apply MS in Hm. now rewrite Hm.
          -- destruct (method_from_str p parse_f64 a) as [m| |] eqn:Q; cbn [pbind]; try discriminate. intros _. right. exists h, a. splits; auto. now apply MP.
          -- intros [K'|(h' & a' & _ & K' & Hm)]; [contradiction|]. apply U in K' as [_ K']. injection K' as ->. apply MP in Hm. now rewrite Hm.
        * split; [intros c; split; [discriminate|]|split; [discriminate|]].
          -- intros (h' & a' & m & _ & K' & _). apply U in K' as [_ K']. discriminate.
          -- intros [K'|(h' & a' & _ & K' & _)]; [contradiction|]. apply U in K' as [_ K']. discriminate.
      + assert (NH : ~ In h hilbert_names).
        { intros [<-|[<-|[]]]; [assert (Q : matches_fully (txt "hilbert") hilbert_re = Some (txt "hilbert")) by (apply hilbert_full; auto)|assert (Q : matches_fully (txt "Hilbert") hilbert_re = Some (txt "Hilbert")) by (apply hilbert_full; auto)]; congruence. }
        cbn [opt_or pbind]. split; [intros c; split; [discriminate|]|split; [discriminate|]].
        * intros (h' & a' & m & Hi & K' & _). apply U in K' as [-> _]. contradiction.
        * intros [K'|(h' & a' & Hi & K' & _)]; [contradiction|]. apply U in K' as [-> _]. contradiction.
    - assert (NK : forall n l, ~ accepted p s n l) by (intros n l K; apply Acc in K; discriminate).
      assert (NA : ~ aborted p s) by (intros K'; apply Abo in K'; discriminate). cbn [or_other pbind].
      split; [intros c; split; [discriminate|]|split; [discriminate|]].
      + intros (h' & a' & m & _ & K' & _). now apply NK in K'.
      + intros [K'|(h' & a' & _ & K' & _)]; [contradiction|]. now apply NK in K'.
    - assert (NK : forall n l, ~ accepted p s n l) by (intros n l K; apply Acc in K; discriminate).
      cbn [or_other pbind]. split; [intros c; split; [discriminate|]|split; [|reflexivity]].
      + intros (h' & a' & m & _ & K' & _). now apply NK in K'.
      + intros _. left. now apply Abo.
  Qed.
  Lemma zip_all s : (forall c, zip_from_str p s = POk c <-> (accepted p s (txt "zip") [txt "dict"] /\ c = Zip ZDict) \/ (accepted p s (txt "zip") [txt "back"] /\ c = Zip ZBack))
    /\ (zip_from_str p s = PPanic <-> aborted p s).
  Proof.
    destruct (fun_call_all p s) as [Acc Abo]. unfold zip_from_str. destruct (fun_call p s) as [[h l]| |] eqn:F.
    - assert (K := proj1 (Acc h l) eq_refl).
      assert (U : forall n' l', accepted p s n' l' -> n' = h /\ l' = l) by (intros n' l' K'; apply Acc in K'; now injection K' as -> ->).
      assert (NA : ~ aborted p s) by (intros K'; apply Abo in K'; discriminate). cbn [or_other pbind].
      destruct (matches_fully h (lit (txt "zip"))) as [t|] eqn:M.
      + apply full_lit in M as [-> _]. cbn [opt_or pbind]. destruct l as [|a [|a2 l]]; cbn [length Nat.eqb negb].
        * split; [|split; [discriminate|contradiction]]. intros c. split; [discriminate|]. intros [[K' _]|[K' _]]; apply U in K' as [_ K']; discriminate.
        * destruct (text_eqb a (txt "dict")) eqn:Q1; [|destruct (text_eqb a (txt "back")) eqn:Q2]; (split; [|split; [discriminate|contradiction]]); intros c.
          -- apply text_eqb_eq in Q1. subst a. split; [intros E; injection E as <-; auto|]. intros [[_ ->]|[K' _]]; [reflexivity|]. apply U in K' as [_ K']. discriminate.
          -- apply text_eqb_eq in Q2. subst a. split; [intros E; injection E as <-; auto|]. intros [[K' _]|[_ ->]]; [|reflexivity]. apply U in K' as [_ K']. discriminate.
          -- split; [discriminate|]. intros [[K' _]|[K' _]]; apply U in K' as [_ K']; injection K' as <-; discriminate.
        * split; [|split; [discriminate|contradiction]]. intros c. split; [discriminate|]. intros [[K' _]|[K' _]]; apply U in K' as [_ K']; discriminate.
      + apply full_lit_none in M. cbn [opt_or pbind]. split; [|split; [discriminate|contradiction]]. intros c. split; [discriminate|].
        intros [[K' _]|[K' _]]; apply U in K' as [K' _]; congruence.
    - assert (NK : forall n l, ~ accepted p s n l) by (intros n l K; apply Acc in K; discriminate).
      assert (NA : ~ aborted p s) by (intros K'; apply Abo in K'; discriminate). cbn [or_other pbind].
      split; [|split; [discriminate|contradiction]]. intros c. split; [discriminate|]. intros [[K' _]|[K' _]]; now apply NK in K'.
    - assert (NK : forall n l, ~ accepted p s n l) by (intros n l K; apply Acc in K; discriminate). cbn [or_other pbind].
      split; [|split; [intros _; now apply Abo|reflexivity]]. intros c. split; [discriminate|]. intros [[K' _]|[K' _]]; now apply NK in K'.
  Qed.
  Lemma hufman_no_paren s : Forall2 (fun c l => c = l \/ c + 32 = l)%N s (txt "hufman") -> ~ In LPAREN s.
  Proof.
    intros Hs I. assert (L : Forall (fun l => (97 <= l <= 122)%N) (txt "hufman")) by (repeat constructor; cbn; lia).
    induction Hs as [|c l s t Hc Hs IH]; [destruct I|]. inversion_clear L. destruct I as [->|I]; [unfold LPAREN in Hc; lia|auto].
  Qed.
  Lemma delta_no_paren : ~ In LPAREN (txt "delta"). Proof. now apply plainb_no_open. Qed.
  Lemma from_str_all s : (forall c, any_codec_from_str p d parse_f64 s = POk c <-> any_selects p d parse_f64 s c)
    /\ (any_codec_from_str p d parse_f64 s = PPanic <-> select_aborts p d s).
  Proof.
    destruct (any_cluster s) as [C1 P1]. destruct (any_voronoi s) as [C2 P2]. destruct (delta_cases s) as [C3 P3].
    destruct (hilbert_all s) as [C4 P4]. destruct (hufman_cases s) as [C5 P5]. destruct (zip_all s) as [C6 P6].
    rewrite from_str_order. unfold any_selects, select_aborts, unnumbered.
    destruct (cluster_from_str d s) as [c1|e1|] eqn:F1; [| |congruence].
    { destruct (proj1 (C1 c1) eq_refl) as (n1 & H1 & E1). split.
      - intros c. split.
        + intros Q. injection Q as <-. left. eauto.
        + intros [H|[[N _]|[[N _] _]]]; [now apply C1 in H|now destruct (N n1)|now destruct (N n1)].
      - split; [discriminate|]. intros [[N _] _]. now destruct (N n1). }
    assert (N1 : forall n, ~ any_numbered d cluster_words s n) by (intros n H; assert (Q : @PErr any_codec e1 = POk (ClusterColors n)) by (apply C1; eauto); discriminate).
    destruct (voronoi_from_str d s) as [c2|e2|] eqn:F2; [| |congruence].
    { destruct (proj1 (C2 c2) eq_refl) as (n2 & H2 & E2). split.
      - intros c. split.
        + intros Q. injection Q as <-. right. left. eauto.
        + intros [(n & H & _)|[[_ H]|[[_ N] _]]]; [now destruct (N1 n)|now apply C2 in H|now destruct (N n2)].
      - split; [discriminate|]. intros [[_ N] _]. now destruct (N n2). }
    assert (N2 : forall n, ~ any_numbered d voronoi_words s n) by (intros n H; assert (Q : @PErr any_codec e2 = POk (VoronoiCluster n)) by (apply C2; eauto); discriminate).
    assert (RED : forall (A B C : Prop), ((exists n, any_numbered d cluster_words s n /\ A) \/ ((forall n, ~ any_numbered d cluster_words s n) /\ exists n, any_numbered d voronoi_words s n /\ B)
      \/ (((forall n, ~ any_numbered d cluster_words s n) /\ (forall n, ~ any_numbered d voronoi_words s n)) /\ C)) -> C).
    { intros A B C [(n & H & _)|[[_ (n & H & _)]|[_ H]]]; [now destruct (N1 n)|now destruct (N2 n)|exact H]. }
    set (rest := fun c => (s = txt "delta" /\ c = Delta)
         \/ (exists h a m, In h hilbert_names /\ accepted p s h [a] /\ any_method p parse_f64 a m /\ c = Hilbert m)
         \/ (Forall2 (fun c l => c = l \/ c + 32 = l)%N s (txt "hufman") /\ c = Hufman)
         \/ (accepted p s (txt "zip") [txt "dict"] /\ c = Zip ZDict)
         \/ (accepted p s (txt "zip") [txt "back"] /\ c = Zip ZBack)).
    enough (G : (forall c, match delta_from_str s with POk c => POk c | PPanic => PPanic | PErr e3 =>
        match hilbert_from_str p parse_f64 s with POk c => POk c | PPanic => PPanic | PErr e4 =>
        match hufman_from_str s with POk c => POk c | PPanic => PPanic | PErr e5 =>
        match zip_from_str p s with POk c => POk c | PPanic => PPanic | PErr e6 =>
          PErr (AllFailed [(txt "ClusterColors", e1); (txt "VoronoiCluster", e2); (txt "Delta", e3); (txt "Hilbert", e4); (txt "Hufman", e5); (txt "Zip", e6)])
        end end end end = POk c <-> rest c) /\
        (match delta_from_str s with POk c => POk c | PPanic => PPanic | PErr e3 =>
        match hilbert_from_str p parse_f64 s with POk c => POk c | PPanic => PPanic | PErr e4 =>
        match hufman_from_str s with POk c => POk c | PPanic => PPanic | PErr e5 =>
        match zip_from_str p s with POk c => POk c | PPanic => PPanic | PErr e6 =>
          PErr (AllFailed [(txt "ClusterColors", e1); (txt "VoronoiCluster", e2); (txt "Delta", e3); (txt "Hilbert", e4); (txt "Hufman", e5); (txt "Zip", e6)])
        end end end end = PPanic <-> (aborted p s \/ exists h a, In h hilbert_names /\ accepted p s h [a] /\ (aborted p a \/ accepted p a (txt "rle") [])))).
    { destruct G as [G1 G2]. split.
      - intros c. rewrite G1. unfold rest. split; [intros H; right; right; now split|]. intros [(n & H & _)|[[_ (n & H & _)]|[_ H]]]; [now destruct (N1 n)|now destruct (N2 n)|exact H].
      - rewrite G2. tauto. }
    clear RED. unfold rest. clear rest.
    assert (NP : forall t, ~ In LPAREN t -> s = t -> (forall n l, ~ accepted p s n l) /\ ~ aborted p s).
    { intros t Ht ->. split; [intros n l K; now apply accepted_paren in K|]. intros K. now apply aborted_paren in K. }
    destruct (delta_from_str s) as [c3|e3|] eqn:F3; [| |congruence].
    { destruct (proj1 (C3 c3) eq_refl) as [E ->]. destruct (NP _ delta_no_paren E) as [NK NA]. split.
      - intros c. split; [intros Q; injection Q as <-; auto|].
        intros [[_ ->]|[(h & a & m & _ & K & _)|[[H _]|[[K _]|[K _]]]]]; [reflexivity| | | |]; try now apply NK in K.
        exfalso. rewrite E in H. inversion H as [|? ? ? ? Hx _]. destruct Hx as [Hx|Hx]; vm_compute in Hx; discriminate.
      - split; [discriminate|]. intros [K|(h & a & _ & K & _)]; [contradiction|now apply NK in K]. }
    assert (N3 : forall c, ~ (s = txt "delta" /\ c = Delta)) by (intros c H; apply C3 in H; discriminate).
    destruct (hilbert_from_str p parse_f64 s) as [c4|e4|] eqn:F4.
    { destruct (proj1 (C4 c4) eq_refl) as (h & a & m & Hi & K & Hm & ->). assert (U : forall n l, accepted p s n l -> n = h /\ l = [a]).
      { intros n l K'. apply fun_call_all in K, K'. rewrite K in K'. now injection K' as <- <-. }
      split.
      - intros c. split; [intros Q; injection Q as <-; right; left; exists h, a, m; auto|].
        intros [H|[H|[[H _]|[[K' _]|[K' _]]]]]; [now apply N3 in H|now apply C4 in H| | |].
        + apply hufman_no_paren in H. now apply accepted_paren in K.
        + apply U in K' as [<- _]. destruct Hi as [Q|[Q|[]]]; discriminate.
        + apply U in K' as [<- _]. destruct Hi as [Q|[Q|[]]]; discriminate.
      - rewrite <- P4. split; discriminate. }
    2: { split; [|rewrite <- P4; tauto]. intros c. split; [discriminate|].
      assert (AB := proj1 P4 eq_refl). assert (NH : forall c', ~ (exists h a m, In h hilbert_names /\ accepted p s h [a] /\ any_method p parse_f64 a m /\ c' = Hilbert m)) by (intros c' H; apply C4 in H; discriminate).
      assert (HP : In LPAREN s) by (destruct AB as [AB|(h & a & _ & AB & _)]; [now apply aborted_paren in AB|now apply accepted_paren in AB]).
      assert (NZ : forall l, ~ accepted p s (txt "zip") l).
      { intros l K. apply fun_call_all in K. destruct AB as [AB|(h & a & Hi & AB & _)].
        - apply fun_call_all in AB. congruence.
        - apply fun_call_all in AB. rewrite AB in K. injection K as -> _. destruct Hi as [Q|[Q|[]]]; discriminate. }
      intros [H|[H|[[H _]|[[K _]|[K _]]]]]; [now apply N3 in H|now apply NH in H| | |]; [now apply hufman_no_paren in H|now apply NZ in K|now apply NZ in K]. }
    assert (N4 : forall c', ~ (exists h a m, In h hilbert_names /\ accepted p s h [a] /\ any_method p parse_f64 a m /\ c' = Hilbert m)) by (intros c' H; apply C4 in H; discriminate).
    rewrite <- P4. destruct (hufman_from_str s) as [c5|e5|] eqn:F5; [| |congruence].
    { destruct (proj1 (C5 c5) eq_refl) as [H ->]. split; [|split; discriminate]. intros c. split; [intros Q; injection Q as <-; auto|].
      intros [K|[K|[[_ ->]|[[K _]|[K _]]]]]; [now apply N3 in K|now apply N4 in K|reflexivity| |]; apply accepted_paren in K; now apply hufman_no_paren in H. }
    assert (N5 : forall c, ~ (Forall2 (fun c l => c = l \/ c + 32 = l)%N s (txt "hufman") /\ c = Hufman)) by (intros c H; apply C5 in H; discriminate).
    destruct (zip_from_str p s) as [c6|e6|] eqn:F6.
    - split; [|split; discriminate]. intros c. rewrite C6. split; [tauto|]. intros [K|[K|[K|K]]]; [now apply N3 in K|now apply N4 in K|now apply N5 in K|exact K].
    - split; [|split; discriminate]. intros c. split; [discriminate|]. intros [K|[K|[K|K]]]; [now apply N3 in K|now apply N4 in K|now apply N5 in K|]. apply C6 in K. discriminate.
    - exfalso. assert (A := proj1 P6 eq_refl). assert (Q : @PErr any_codec e4 = PPanic) by (apply P4; now left). discriminate.
  Qed.
End All.

(** ** Cases *)
Definition deep_zip : text := txt "zip(dict," ++ repeat LPAREN (N.to_nat 65535).
Definition picks_zip (r : parsed any_codec) : bool := match r with POk (Zip ZDict) => true | _ => false end.
Definition aborts {A} (r : parsed A) : bool := match r with PPanic => true | _ => false end.
(** Also the digits of Arabic *)
Definition more_digits (c : N) : bool := (((48 <=? c) && (c <=? 57)) || ((1632 <=? c) && (c <=? 1641)))%N.
Lemma more_digits_ok : digit_class_ok more_digits.
Proof. intros c H. unfold more_digits. destruct (N.leb_spec 1632 c); [lia|]. now rewrite orb_false_r. Qed.
Definition two_numbers : text := txt "voronoi(" ++ [1635%N] ++ txt ")voronoi(5)".
Lemma select_all_case : digit_class_ok more_digits
  /\ (forall f, any_codec_from_str Release more_digits f deep_zip = POk (Zip ZDict) /\ any_codec_from_str Debug more_digits f deep_zip = PPanic)
  /\ (forall f, any_selects Release more_digits f deep_zip (Zip ZDict)) /\ select_aborts Debug more_digits deep_zip
  /\ (forall p f, any_codec_from_str p ascii_digit_class f two_numbers = POk (VoronoiCluster 5) /\ exists e, any_codec_from_str p more_digits f two_numbers = PErr e).
Proof.
  assert (A : forall f, any_codec_from_str Release more_digits f deep_zip = POk (Zip ZDict)).
  { intros f. assert (H : picks_zip (any_codec_from_str Release more_digits f deep_zip) = true) by (vm_compute; reflexivity).
    destruct (any_codec_from_str Release more_digits f deep_zip) as [[| | | | |[]]| |]; try discriminate H. reflexivity. }
  assert (B : forall f, any_codec_from_str Debug more_digits f deep_zip = PPanic).
  { intros f. assert (H : aborts (any_codec_from_str Debug more_digits f deep_zip) = true) by (vm_compute; reflexivity).
    destruct (any_codec_from_str Debug more_digits f deep_zip); try discriminate H. reflexivity. }
  splits.
  - exact more_digits_ok.
  - auto.
  - intros f. apply (from_str_all Release more_digits f more_digits_ok). apply A.
  - apply (from_str_all Debug more_digits (fun _ => None) more_digits_ok). apply B.
  - intros p f. split; [destruct p; vm_compute; reflexivity|]. destruct p; eexists; vm_compute; reflexivity.
Qed.
