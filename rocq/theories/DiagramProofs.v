(** * Proofs about the diagrams: names, tables and series. *)
From Coq Require Import String Permutation Sorted ZifyBool ZifyNat ZifyN.
From Flocq Require Import BinarySingleNaN.
From Verif Require Import ProgramSpec Base Prs PrsSpec PrsProofs PrsTop Img Float HilbertC Select Bench Special SpecialSpec SpecialProofs Diagrams DiagramSpec KmeansProofs VoronoiProofs.
Close Scope string_scope.
Open Scope list_scope.
Notation length := List.length.

(** ** Names *)
Lemma text_eqb_refl a : text_eqb a a = true.
Proof. now apply text_eqb_eq. Qed.
Lemma ends_with_app suf a : ends_with suf (a ++ suf) = true.
Proof.
  unfold ends_with. rewrite app_length. apply andb_true_intro. split; [apply Nat.leb_le; lia|].
  replace (length a + length suf - length suf)%nat with (length a) by lia. rewrite skipn_app, skipn_all, Nat.sub_diag. cbn [app skipn]. apply text_eqb_refl.
Qed.
Lemma ends_with_inv suf t : ends_with suf t = true -> exists a, t = a ++ suf.
Proof.
  unfold ends_with. intros H. apply andb_prop in H as [H1 H2]. apply text_eqb_eq in H2. exists (firstn (length t - length suf) t). rewrite <- H2 at 2. now rewrite firstn_skipn.
Qed.
Lemma tail_inj {A} (a b s : list A) : a ++ s = b ++ s -> a = b.
Proof. apply app_inv_tail. Qed.
Lemma no_h_not_hilbert name : Forall (fun c => c <> 104)%N name -> ends_with (txt ".hilbert") name = false.
Proof.
  intros H. destruct (ends_with (txt ".hilbert") name) eqn:E; [|reflexivity]. apply ends_with_inv in E as [a ->]. apply Forall_app in H as [_ H].
  exfalso. apply Forall_inv_tail, Forall_inv in H. now apply H.
Qed.
Lemma h_not_hilbert rest : Forall (fun c => c <> 104)%N rest -> ends_with (txt ".hilbert") (104%N :: rest) = false.
Proof.
  intros H. destruct (ends_with (txt ".hilbert") (104%N :: rest)) eqn:E; [|reflexivity]. apply ends_with_inv in E as [[|x a] E]; [discriminate E|].
  apply (f_equal (@tl N)) in E. cbn [tl app] in E. rewrite E in H. apply Forall_app in H as [_ H]. exfalso. apply Forall_inv_tail, Forall_inv in H. now apply H.
Qed.
Lemma uint_no_h d : Forall (fun c => c <> 104 /\ c <> SLASH /\ c <> UNDERSCORE)%N (txt (DecimalString.NilEmpty.string_of_uint d)).
Proof. induction d; cbn; constructor; try assumption; repeat split; discriminate. Qed.
Lemma name_hilbert show c : show_ok show -> ends_with (txt ".hilbert") (codec_name show c) = false.
Proof.
  intros HS. destruct c as [n|n| |m| |k]; cbn [codec_name].
  - apply no_h_not_hilbert. apply Forall_app. split; [repeat constructor; discriminate|]. eapply Forall_impl; [|apply uint_no_h]. now intros a (H & _).
  - apply no_h_not_hilbert. apply Forall_app. split; [repeat constructor; discriminate|]. eapply Forall_impl; [|apply uint_no_h]. now intros a (H & _).
  - reflexivity.
  - destruct m as [d|]; [|reflexivity]. destruct (feq d (f64_of_N 0)); [reflexivity|].
    change (txt "hilbert-rle-approx_" ++ show d) with (104%N :: (tl (txt "hilbert-rle-approx_") ++ show d)). apply h_not_hilbert. apply Forall_app.
    split; [repeat constructor; discriminate|]. eapply Forall_impl; [|apply HS]. now intros a (H & _).
  - reflexivity.
  - now destruct k.
Qed.
Lemma name_first show c : exists x rest, codec_name show c = x :: rest /\ (x =? DOT)%N = false.
Proof.
  destruct c as [n|n| |m| |k]; cbn [codec_name]; try (eexists _, _; split; [reflexivity|reflexivity]).
  - destruct m as [d|]; [destruct (feq d (f64_of_N 0))|]; eexists _, _; split; reflexivity.
  - destruct k; eexists _, _; split; reflexivity.
Qed.
Theorem tables_drawn show c : show_ok show -> is_diagram_csv (codec_name show c ++ txt ".csv") = true.
Proof.
  intros HS. destruct (name_first show c) as (x & rest & E & Hx). pose proof (name_hilbert show c HS) as H. unfold is_diagram_csv.
  destruct (codec_name show c ++ txt ".csv") as [|y l] eqn:En; [rewrite E in En; discriminate En|].
  assert (Ey : y = x) by (rewrite E in En; now injection En). subst y. rewrite Hx. cbn [negb andb]. rewrite <- En, ends_with_app. cbn [andb].
  apply Bool.negb_true_iff. destruct (ends_with (txt ".hilbert.csv") (codec_name show c ++ txt ".csv")) eqn:F; [|reflexivity]. exfalso.
  apply ends_with_inv in F as [a F]. change (txt ".hilbert.csv") with (txt ".hilbert" ++ txt ".csv") in F. rewrite app_assoc in F. apply tail_inj in F.
  rewrite F, ends_with_app in H. discriminate H.
Qed.
Lemma hilbert_not_drawn name : ends_with (txt ".hilbert.csv") name = true -> is_diagram_csv name = false.
Proof. unfold is_diagram_csv. intros ->. destruct name; [reflexivity|]. apply Bool.andb_false_r. Qed.
Lemma other_not_drawn name : ends_with (txt ".csv") name = false -> is_diagram_csv name = false.
Proof. unfold is_diagram_csv. intros ->. destruct name; [reflexivity|]. now rewrite Bool.andb_false_r. Qed.
Theorem dumps_not_drawn path meth name : dump_file path meth = Ok (txt "output/" ++ name) -> is_diagram_csv name = false.
Proof.
  unfold dump_file. intros H. apply under_output_inside in H as (stem & H & _). apply app_inv_head in H. subst name.
  replace (stem ++ [DOT] ++ meth ++ txt ".hilbert.csv") with ((stem ++ [DOT] ++ meth) ++ txt ".hilbert.csv") by (rewrite <- !app_assoc; reflexivity).
  apply hilbert_not_drawn, ends_with_app.
Qed.
Theorem images_not_drawn path name : under_output path (txt "png") = Ok (txt "output/" ++ name) -> is_diagram_csv name = false.
Proof.
  intros H. apply under_output_inside in H as (stem & H & _). apply app_inv_head in H. subst name. apply other_not_drawn.
  destruct (ends_with (txt ".csv") (stem ++ [DOT] ++ txt "png")) eqn:E; [|reflexivity]. exfalso. apply ends_with_inv in E as [a E].
  apply (f_equal (@rev N)) in E. rewrite !rev_app_distr in E. discriminate E.
Qed.
Lemma splitext_csv name : splitext (name ++ txt ".csv") = name.
Proof.
  unfold splitext. change (txt ".csv") with (DOT :: txt "csv"). rewrite split_app. replace (split_on DOT (txt "csv")) with [txt "csv"] by reflexivity.
  rewrite rev_app_distr. cbn [rev app]. destruct (split_last DOT name) as (l & e & E & En). rewrite E, rev_app_distr. cbn [rev app]. rewrite rev_involutive. rewrite En at 1. reflexivity.
Qed.
Lemma hd_split a b : ~ In UNDERSCORE a -> hd [] (split_on UNDERSCORE (a ++ UNDERSCORE :: b)) = a.
Proof. intros H. rewrite split_app, split_none by exact H. reflexivity. Qed.
Definition family (c : any_codec) : text :=
  match c with
  | ClusterColors _ => txt "cluster-colors"
  | VoronoiCluster _ => txt "voronoi"
  | Delta => txt "delta"
  | Hilbert (RLE d) => if feq d (f64_of_N 0) then txt "hilbert-rle" else txt "hilbert-rle-approx"
  | Hilbert MZip => txt "hilbert-zip"
  | Hufman => txt "Hufman"
  | Zip ZDict => txt "zip-dict"
  | Zip ZBack => txt "zip-back"
  end.
Ltac no_char := cbn; intuition discriminate.
Lemma series_family show c : series_name (codec_name show c ++ txt ".csv") = family c.
Proof.
  unfold series_name. rewrite splitext_csv. destruct c as [n|n| |m| |k]; cbn [codec_name family].
  - change (txt "cluster-colors_" ++ decimal n) with (txt "cluster-colors" ++ UNDERSCORE :: decimal n). apply hd_split. no_char.
  - change (txt "voronoi_" ++ decimal n) with (txt "voronoi" ++ UNDERSCORE :: decimal n). apply hd_split. no_char.
  - reflexivity.
  - destruct m as [d|]; [|reflexivity]. destruct (feq d (f64_of_N 0)); [reflexivity|].
    change (txt "hilbert-rle-approx_" ++ show d) with (txt "hilbert-rle-approx" ++ UNDERSCORE :: show d). apply hd_split. no_char.
  - reflexivity.
  - destruct k; reflexivity.
Qed.
Theorem series_names show c c' : series_name (codec_name show c ++ txt ".csv") = series_name (codec_name show c' ++ txt ".csv") <-> same_family c c'.
Proof.
  rewrite !series_family. unfold same_family, family. destruct c as [n|n| |[d|]| |[|]]; destruct c' as [n'|n'| |[d'|]| |[|]];
    repeat match goal with |- context [feq ?d (f64_of_N 0)] => destruct (feq d (f64_of_N 0)) end; split; intros H; try reflexivity; try discriminate H; try exact I.
Qed.

(** ** The dictionary *)
Lemma add_file_keys n f : forall s, NoDup (map fst s) -> NoDup (map fst (add_file n f s)) /\ forall k, In k (map fst (add_file n f s)) <-> k = n \/ In k (map fst s).
Proof.
  induction s as [|[k fs] s IH]; intros HN.
  - cbn. split; [repeat constructor; auto|]. intros k. intuition.
  - cbn [add_file map fst] in *. apply NoDup_cons_iff in HN as [H1 H2]. destruct (IH H2) as [I1 I2]. destruct (text_eqb k n) eqn:E.
    + apply text_eqb_eq in E. subst k. cbn [map fst]. split; [now constructor|]. intros k. cbn. intuition.
    + cbn [map fst]. split.
      * constructor; [|exact I1]. intros H. apply I2 in H as [->|H]; [now rewrite text_eqb_refl in E|contradiction].
      * intros k'. cbn. rewrite I2. intuition.
Qed.
Lemma add_file_in n f : forall s k fs, NoDup (map fst s) -> In (k, fs) (add_file n f s) ->
  (k <> n /\ In (k, fs) s) \/ (k = n /\ ((~ In n (map fst s) /\ fs = [f]) \/ exists fs0, In (n, fs0) s /\ fs = fs0 ++ [f])).
Proof.
  induction s as [|[k0 fs0] s IH]; intros k fs HN H.
  - cbn in H. destruct H as [H|[]]. injection H as <- <-. right. split; [reflexivity|]. left. cbn. auto.
  - cbn [add_file] in H. cbn [map fst] in HN. apply NoDup_cons_iff in HN as [H1 H2]. destruct (text_eqb k0 n) eqn:E.
    + apply text_eqb_eq in E. subst k0. destruct H as [H|H].
      * injection H as <- <-. right. split; [reflexivity|]. right. exists fs0. split; [now left|reflexivity].
      * left. split; [|now right]. intros ->. apply H1. now apply (in_map fst) in H.
    + destruct H as [H|H].
      * injection H as <- <-. left. split; [intros ->; now rewrite text_eqb_refl in E|now left].
      * destruct (IH k fs H2 H) as [[A B]|[A [[B C]|(fs1 & B & C)]]].
        -- left. split; [exact A|now right].
        -- right. split; [exact A|]. left. split; [|exact C]. cbn. intros [->|G]; [now rewrite text_eqb_refl in E|contradiction].
        -- right. split; [exact A|]. right. exists fs1. split; [now right|exact C].
Qed.
Lemma filter_none {A} (g : A -> bool) l : (forall x, In x l -> g x = false) -> filter g l = [].
Proof. induction l as [|x l IH]; intros H; [reflexivity|]. cbn. rewrite (H x (or_introl eq_refl)). apply IH. intros y Hy. apply H. now right. Qed.
Lemma data_series_spec files :
  NoDup (map fst (data_series files)) /\ (forall n, In n (map fst (data_series files)) <-> In n (map (fun f => series_name (fst f)) files))
  /\ forall n fs, In (n, fs) (data_series files) -> fs = of_series n files.
Proof.
  rewrite <- (rev_involutive files). generalize (rev files) as r. clear files. unfold data_series. intros r. rewrite <- fold_left_rev_right, rev_involutive.
  induction r as [|f r IH]; [cbn; repeat split; try constructor; tauto|]. cbn [fold_right rev]. destruct IH as (I1 & I2 & I3).
  destruct (add_file_keys (series_name (fst f)) f _ I1) as [K1 K2]. split; [exact K1|]. split.
  - intros n. rewrite K2, I2. rewrite map_app, in_app_iff. cbn. intuition.
  - intros n fs H. unfold of_series. rewrite filter_app. cbn [filter]. apply add_file_in in H as [[A B]|[A [[B ->]|(fs0 & B & ->)]]]; [| | |exact I1].
    + rewrite (text_eqb_neq (series_name (fst f)) n) by congruence. rewrite app_nil_r. exact (I3 n fs B).
    + subst n. rewrite text_eqb_refl. rewrite filter_none; [reflexivity|]. intros x Hx. destruct (text_eqb (series_name (fst x)) (series_name (fst f))) eqn:E; [|reflexivity].
      apply text_eqb_eq in E. exfalso. apply B, I2. rewrite <- E. apply (in_map (fun f => series_name (fst f)) _ x Hx).
    + subst n. rewrite text_eqb_refl. f_equal. exact (I3 _ _ B).
Qed.

(** ** The scatter plot *)
Section Scripts.
  Variables (reread : f64 -> f64) (mean : list f64 -> f64).
  Lemma read_cases f : (has_header f /\ exists fr, read_csv reread f = Ok fr) \/ (~ has_header f /\ read_csv reread f = Panic).
  Proof. destruct f as [[|r rows]|l]; cbn; [right; split; [congruence|reflexivity]|left|left]; split; try discriminate; try exact I; eexists; reflexivity. Qed.
  Local Notation drawn_at := (DiagramSpec.drawn_at reread mean).
  Lemma map_ext' {A B} (f g : A -> B) l : (forall x, f x = g x) -> map f l = map g l.
  Proof. intros H. apply map_ext, H. Qed.
  Lemma point_cases f : (has_header f /\ exists q, point reread mean f = Ok q /\ drawn_at f q) \/ (~ has_header f /\ point reread mean f = Panic).
  Proof.
    unfold point. destruct f as [[|r rows]|l]; cbn [read_csv res_bind has_header f_ratios f_errors].
    - right. split; [congruence|reflexivity].
    - left. split; [discriminate|]. eexists. split; [reflexivity|]. unfold DiagramSpec.drawn_at, rec_ratio, rec_error. f_equal; [f_equal|]; f_equal; apply map_ext'; now intros [[[? ?] ?] ?].
    - left. split; [exact I|]. eexists. split; reflexivity.
  Qed.
  Lemma mapM_cases {A B} (f : A -> res B) (good : A -> Prop) (spec : A -> B -> Prop) l :
    (forall x, In x l -> (good x /\ exists y, f x = Ok y /\ spec x y) \/ (~ good x /\ f x = Panic)) ->
    (Forall good l /\ exists r, res_mapM f l = Ok r /\ Forall2 spec l r) \/ (~ Forall good l /\ res_mapM f l = Panic).
  Proof.
    induction l as [|x l IH]; intros H; cbn [res_mapM].
    - left. split; [constructor|]. exists []. split; [reflexivity|constructor].
    - destruct (H x (or_introl eq_refl)) as [(G & y & E & S)|[G E]]; rewrite E; cbn [res_bind].
      + destruct IH as [(GL & r & EL & SL)|[GL EL]]; [intros z Hz; apply H; now right| |]; rewrite EL; cbn [res_bind].
        * left. split; [now constructor|]. eexists. split; [reflexivity|now constructor].
        * right. split; [|reflexivity]. intros F. apply GL. now inversion F.
      + right. split; [|reflexivity]. intros F. apply G. now inversion F.
  Qed.
  Theorem scatter_spec files :
    (Forall (fun f => has_header (snd f)) files ->
      exists ss, scatter reread mean files = Ok ss /\ NoDup (map fst ss) /\ (forall n, In n (map fst ss) <-> In n (map (fun f => series_name (fst f)) files))
      /\ forall n qs, In (n, qs) ss -> Forall2 (fun f q => drawn_at (snd f) q) (of_series n files) qs)
    /\ (~ Forall (fun f => has_header (snd f)) files -> scatter reread mean files = Panic).
  Proof.
    destruct (data_series_spec files) as (D1 & D2 & D3). unfold scatter.
    set (one := fun s : text * list (text * csv_file) => res_bind (res_mapM (fun file => point reread mean (snd file)) (snd s)) (fun ps => Ok (fst s, ps))).
    assert (One : forall s, (Forall (fun f => has_header (snd f)) (snd s) /\ exists y, one s = Ok y /\ (fst y = fst s /\ Forall2 (fun f q => drawn_at (snd f) q) (snd s) (snd y)))
                            \/ (~ Forall (fun f => has_header (snd f)) (snd s) /\ one s = Panic)).
    { intros [n fs]. unfold one. cbn [fst snd].
      destruct (mapM_cases (fun file => point reread mean (snd file)) (fun f => has_header (snd f)) (fun f q => drawn_at (snd f) q) fs) as [(G & r & E & S)|[G E]].
      - intros x _. apply point_cases.
      - left. split; [exact G|]. rewrite E. cbn [res_bind]. eexists. split; [reflexivity|]. auto.
      - right. rewrite E. auto. }
    destruct (mapM_cases one (fun s => Forall (fun f => has_header (snd f)) (snd s)) (fun s y => fst y = fst s /\ Forall2 (fun f q => drawn_at (snd f) q) (snd s) (snd y)) (data_series files)) as [(G & ss & E & S)|[G E]].
    - intros x _. apply One.
    - split.
      + intros _. exists ss. split; [exact E|]. assert (M : map fst ss = map fst (data_series files)) by (clear -S; induction S as [|? ? ? ? [H _]]; [reflexivity|]; cbn; now rewrite H, IHS).
        rewrite M. split; [exact D1|]. split; [exact D2|]. intros n qs H.
        assert (X : exists fs, In (n, fs) (data_series files) /\ Forall2 (fun f q => drawn_at (snd f) q) fs qs).
        { clear -S H. induction S as [|[n0 fs0] [n1 q1] ? ? [H1 H2]]; [destruct H|]. cbn in H1, H2. destruct H as [H|H].
          - injection H as -> ->. exists fs0. subst. split; [now left|exact H2].
          - destruct (IHS H) as (fs & A & B). exists fs. split; [now right|exact B]. }
        destruct X as (fs & A & B). now rewrite <- (D3 _ _ A).
      + intros C. exfalso. apply C. apply Forall_forall. intros f Hf.
        assert (K : In (series_name (fst f)) (map fst (data_series files))) by (apply D2, (in_map (fun f => series_name (fst f)) _ _ Hf)).
        apply in_map_iff in K as ([n fs] & En & K). cbn in En. subst n. apply (proj1 (Forall_forall _ _) G) in K as K2. cbn [snd] in K2. rewrite (D3 _ _ K) in K2.
        apply (proj1 (Forall_forall _ _) K2 f). unfold of_series. apply filter_In. split; [exact Hf|apply text_eqb_refl].
    - split; [|intros _; exact E]. intros F. exfalso. apply G. apply Forall_forall. intros [n fs] Hs. cbn. rewrite (D3 _ _ Hs). apply Forall_forall.
      intros x Hx. apply filter_In in Hx as [Hx _]. exact (proj1 (Forall_forall _ _) F x Hx).
  Qed.

  (** ** The box plot *)
  Local Notation box := (DiagramSpec.box reread).
  Local Notation kept := (DiagramSpec.kept reread mean).
  Lemma gather_spec files : (Forall (fun f => has_header (snd f)) files /\ gather reread mean files = Ok (map box (filter (fun f => kept (snd f)) files)))
    \/ (~ Forall (fun f => has_header (snd f)) files /\ gather reread mean files = Panic).
  Proof.
    induction files as [|[n f] files IH]; [left; split; [constructor|reflexivity]|]. cbn [gather filter snd].
    destruct (read_cases f) as [[Hh [fr E]]|[Hh E]]; rewrite E; cbn [res_bind].
    - destruct IH as [[H1 H2]|[H1 H2]]; rewrite H2; cbn [res_bind].
      + left. split; [now constructor|]. assert (G : boxed mean fr = kept f /\ f_ratios fr = fst (box (n, f))).
        { destruct f as [[|r rows]|l]; cbn [read_csv] in E; [discriminate E| |]; injection E as <-; unfold boxed, DiagramSpec.kept, DiagramSpec.box; cbn [f_errors f_ratios fst snd].
          - split; [f_equal; f_equal|]; unfold rec_error, rec_ratio; apply map_ext'; now intros [[[? ?] ?] ?].
          - split; reflexivity. }
        destruct G as [-> ->]. destruct (kept f); reflexivity.
      + right. split; [|reflexivity]. intros F. apply H1. now inversion F.
    - right. split; [|reflexivity]. intros F. apply Hh. now inversion F.
  Qed.
  Lemma insert_perm b l : Permutation (insert_box mean b l) (b :: l).
  Proof.
    induction l as [|b' l IH]; cbn [insert_box]; [apply Permutation_refl|]. destruct (flt (mean (fst b')) (mean (fst b))); [|apply Permutation_refl].
    eapply Permutation_trans; [apply perm_skip, IH|apply perm_swap].
  Qed.
  Lemma sort_perm l : Permutation (sort_boxes mean l) l.
  Proof. induction l as [|b l IH]; [constructor|]. cbn. eapply Permutation_trans; [apply insert_perm|]. now apply perm_skip. Qed.
  Theorem boxplot_spec files : let shown := filter (fun f => kept (snd f)) files in
    (Forall (fun f => has_header (snd f)) files /\ shown <> [] -> exists boxes, boxplot reread mean files = Ok boxes /\ Permutation boxes (map box shown))
    /\ (~ (Forall (fun f => has_header (snd f)) files /\ shown <> []) -> boxplot reread mean files = Panic).
  Proof.
    intros shown. unfold boxplot. destruct (gather_spec files) as [[H E]|[H E]]; rewrite E; cbn [res_bind]; fold shown.
    - destruct shown as [|f l] eqn:Es; cbn [map].
      + split; [now intros [_ []]|reflexivity].
      + split; [|intros C; exfalso; apply C; split; [exact H|discriminate]]. intros _. eexists. split; [reflexivity|]. apply (sort_perm (box f :: map box l)).
    - split; [now intros [? _]|reflexivity].
  Qed.
End Scripts.
