(** * Dumps and their files. *)
From Coq Require Import String ZifyBool ZifyNat ZifyN.
From Verif Require Import Base Prs PrsTop Img HilbertC HufSpec CodecSpec CodecHilbert CodecSquare SelectSpec Special SpecialSpec SpecialProofs ProgramSpec ProgramProofs CsvText CsvSpec CsvProofs Dumper DumperSpec.
Close Scope string_scope.
Open Scope list_scope.
Notation length := List.length.

(** ** The text of a file *)
Lemma plain_field t : Forall (fun c => special_char c = false) t -> csv_field t = t.
Proof.
  intros H. unfold csv_field. replace (existsb special_char t) with false; [reflexivity|]. symmetry.
  induction H as [|c t H _ IH]; [reflexivity|]. cbn [existsb]. now rewrite H.
Qed.
Lemma decimal_field n : csv_field (decimal n) = decimal n.
Proof.
  apply plain_field. destruct (decimal_digits n) as [_ H]. eapply Forall_impl; [|exact H]. intros c Hc. cbv beta in Hc. unfold special_char, COMMA, MARK, LF, CR. lia.
Qed.
Lemma decimal_nonempty n : decimal n <> [].
Proof. apply decimal_digits. Qed.
Lemma dump_line a b c : csv_line [decimal a; decimal b; decimal c] = decimal a ++ txt "," ++ decimal b ++ txt "," ++ decimal c ++ [10%N].
Proof.
  unfold csv_line. change (csv_fields [decimal a; decimal b; decimal c]) with (csv_field (decimal a) ++ [COMMA] ++ csv_field (decimal b) ++ [COMMA] ++ csv_field (decimal c)).
  rewrite !decimal_field. pose proof (decimal_nonempty a) as H. destruct (decimal a) as [|x t] eqn:E; [now destruct H|]. cbn [app]. rewrite <- !app_assoc. cbn [app].
  rewrite <- !app_assoc. reflexivity.
Qed.
Lemma dump_sheet l : dump_text (dump_table l) = sheet l.
Proof.
  unfold dump_text, sheet, csv_text, dump_table. cbn [map concat].
  change (csv_line [cell_text (Word (txt "red")); cell_text (Word (txt "blue")); cell_text (Word (txt "green"))]) with (txt "red,blue,green" ++ [10%N]).
  rewrite <- !app_assoc. do 2 f_equal. f_equal. rewrite !map_map. apply map_ext. intros px. destruct (to_rgb px) as [[r g] b]. cbn [map cell_text]. apply dump_line.
Qed.

(** ** The traversals *)
Lemma npot_small p w h mw mh : (w <= 2 ^ 31)%N -> (h <= 2 ^ 31)%N -> npot p w = Ok mw -> npot p h = Ok mh ->
  small_side w h (N.min (N.shiftr mw 1) (N.shiftr mh 1)) /\ (N.min (N.shiftr mw 1) (N.shiftr mh 1) <= N.min w h)%N.
Proof.
  intros Hw Hh Ew Eh. destruct (half_npot p w Hw) as (mw' & Ew' & _ & _ & Lw & Zw & Kw). rewrite Ew in Ew'. injection Ew' as <-.
  destruct (half_npot p h Hh) as (mh' & Eh' & _ & _ & Lh & Zh & Kh). rewrite Eh in Eh'. injection Eh' as <-. split; [|lia]. unfold small_side.
  destruct (N.le_gt_cases (N.min w h) 1) as [C|C].
  - left. split; [exact C|]. destruct (N.le_gt_cases w 1) as [D|D]; [rewrite (Zw D); lia|]. rewrite Zh by lia. lia.
  - right. split; [lia|]. destruct Kw as (kw & -> & Bw); [lia|]. destruct Kh as (kh & -> & Bh); [lia|]. destruct (N.le_gt_cases kw kh) as [D|D].
    + exists kw. assert (2 ^ kw <= 2 ^ kh)%N by (apply N.pow_le_mono_r; lia). assert (2 ^ (kw + 1) <= 2 ^ (kh + 1))%N by (apply N.pow_le_mono_r; lia). lia.
    + exists kh. assert (2 ^ kh <= 2 ^ kw)%N by (apply N.pow_le_mono_r; lia). assert (2 ^ (kh + 1) <= 2 ^ (kw + 1))%N by (apply N.pow_le_mono_r; lia). lia.
Qed.
Lemma small_unique w h s s' : small_side w h s -> small_side w h s' -> s = s'.
Proof.
  intros [[A ->]|[A (k & -> & B)]] [[A' ->]|[A' (k' & -> & B')]]; try lia. f_equal. destruct (N.lt_total k k') as [C|[C|C]]; [exfalso|exact C|exfalso].
  - assert (2 ^ (k + 1) <= 2 ^ k')%N by (apply N.pow_le_mono_r; lia). lia.
  - assert (2 ^ (k' + 1) <= 2 ^ k)%N by (apply N.pow_le_mono_r; lia). lia.
Qed.
Lemma large_unique w h s s' : large_side w h s -> large_side w h s' -> s = s'.
Proof. intros [A (k & -> & B)] [A' (k' & -> & B')]. f_equal. pose proof (B k' A'). pose proof (B' k A). lia. Qed.
Lemma traversal_unique scan im meth ps ps' : traversal scan im meth ps -> traversal scan im meth ps' -> ps = ps'.
Proof.
  intros H H'. inversion H as [E|s S E|s S E]; subst; inversion H' as [E'|s' S' E'|s' S' E']; subst;
    try (apply (f_equal (@List.length N)) in E'; vm_compute in E'; discriminate); try (apply (f_equal (fun l => nth 0 l 0%N)) in E'; vm_compute in E'; discriminate); try reflexivity.
  - now rewrite (small_unique _ _ _ _ S S').
  - now rewrite (large_unique _ _ _ _ S S').
Qed.
Section Proofs.
  Variables (p : profile) (scan : scanner) (opens : text -> option img) (creates writes : text -> bool).
  Hypothesis scan_ok : forall w h, (w < 2 ^ 32)%N -> (h < 2 ^ 32)%N -> visits_all w h (scan w h).
  Notation write_sheet := (write_sheet creates writes).
  Notation write_sheets := (write_sheets creates writes).
  Notation dumps := (dumps p scan opens creates writes).
  (** The methods that are left are of this kind. *)
  Definition planned (im : img) (m : text * res (list (N * N))) : Prop :=
    exists ps, snd m = Ok ps /\ traversal scan im (fst m) ps /\ res_mapM (get_pixel im) ps = Ok (map (pixel_at im) ps) /\ Forall (inside (im_w im) (im_h im)) ps.
  Lemma methods_planned im : img_ok im -> (im_w im <= 2 ^ 31)%N -> (im_h im <= 2 ^ 31)%N -> Forall (planned im) (methods p scan im).
  Proof.
    intros Hi Hw Hh. pose proof Hi as (Uw & Uh & _). destruct (half_npot p _ Hw) as (mw & Ew & Bw & Lw & _). destruct (half_npot p _ Hh) as (mh & Eh & Bh & Lh & _).
    destruct (npot_small p _ _ _ _ Hw Hh Ew Eh) as [Sm Sl]. pose proof (npot_large p _ _ _ _ Hw Hh Ew Eh) as La.
    assert (G : forall m ps, traversal scan im m ps -> Forall (inside (im_w im) (im_h im)) ps -> planned im (m, Ok ps)).
    { intros m ps T F. exists ps. split; [reflexivity|]. split; [exact T|]. split; [now apply get_pixels_ok|exact F]. }
    unfold methods, positions_rect, positions_small, positions_large. rewrite Ew, Eh. cbn [res_bind].
    constructor; [|constructor; [|constructor; [|constructor]]].
    - apply G; [constructor|]. apply visits_inside, scan_ok; assumption.
    - apply G; [now constructor|]. set (s := N.min _ _) in *. assert (Hs : (s < 2 ^ 32)%N) by (unfold u32_ok in *; lia).
      eapply Forall_impl; [|apply visits_inside, (scan_ok s s Hs Hs)]. intros [x y]. unfold inside. cbn [fst snd]. lia.
    - set (s := N.max mw mh) in *. assert (Ef : filter (fun '(x, y) => (x <? im_w im) && (y <? im_h im))%N (scan s s) = filter (fun q => (fst q <? im_w im) && (snd q <? im_h im))%N (scan s s)) by (apply filter_ext; now intros [x y]).
      rewrite Ef. apply G; [now constructor|]. apply Forall_forall. intros [x y] I. apply filter_In in I as [_ I]. unfold inside. cbn [fst snd] in *. lia.
  Qed.
  Lemma methods_names im : map fst (methods p scan im) = [txt "rect"; txt "small"; txt "large"].
  Proof. reflexivity. Qed.

  (** ** File names *)
  Lemma put_same name t fs : put_file name t fs name = Some t.
  Proof. unfold put_file. now rewrite (proj2 (text_eqb_eq name name) eq_refl). Qed.
  Lemma put_other name t fs f : f <> name -> put_file name t fs f = fs f.
  Proof. intros H. unfold put_file. now rewrite text_eqb_neq. Qed.
  Lemma dump_file_shape path meth f : dump_file path meth = Ok f -> exists stem, f = stem ++ [DOT] ++ meth ++ txt ".hilbert.csv".
  Proof. unfold dump_file. intros H. destruct (under_output_inside _ _ _ H) as (stem & -> & _). exists (txt "output/" ++ stem). now rewrite <- app_assoc. Qed.
  Lemma methods_differ path path' m m' f : In m [txt "rect"; txt "small"; txt "large"] -> In m' [txt "rect"; txt "small"; txt "large"] ->
    dump_file path m = Ok f -> dump_file path' m' = Ok f -> m = m'.
  Proof.
    intros I I' H H'. apply dump_file_shape in H as (s & ->). apply dump_file_shape in H' as (s' & H'). apply (f_equal (@rev N)) in H'. rewrite !rev_app_distr, <- !app_assoc in H'. apply app_inv_head in H'.
    cbn [In] in I, I'. destruct I as [<-|[<-|[<-|[]]]]; destruct I' as [<-|[<-|[<-|[]]]]; try reflexivity; exfalso; vm_compute in H'; discriminate.
  Qed.

  (** ** One file *)
  Lemma res_mapM_cut {A B} (f : A -> res B) : forall ps, (forall q, f q <> Err) -> (exists l, res_mapM f ps = Ok l) \/ (exists ps1 q ps2 l, ps = ps1 ++ q :: ps2 /\ res_mapM f ps1 = Ok l /\ f q = Panic).
  Proof.
    intros ps Hf. induction ps as [|q ps IH]; [left; exists []; reflexivity|]. destruct (f q) as [y| |] eqn:E; [|now apply Hf in E|right; exists [], q, ps, []; auto].
    destruct IH as [[l Hl]|(ps1 & q' & ps2 & l & -> & Hl & Hq)].
    - left. exists (y :: l). cbn [res_mapM]. rewrite E. cbn [res_bind]. now rewrite Hl.
    - right. exists (q :: ps1), q', ps2, (y :: l). split; [reflexivity|]. split; [|exact Hq]. cbn [res_mapM]. rewrite E. cbn [res_bind]. now rewrite Hl.
  Qed.
  Lemma get_pixel_no_err im q : get_pixel im q <> Err.
  Proof. unfold get_pixel. destruct q as [x y]. destruct (_ && _)%bool; [|discriminate]. destruct (nth_error _ _); discriminate. Qed.
  Lemma sheet_total im ps name fs : exists out fs', write_sheet im ps name fs out fs' /\ out <> Err.
  Proof.
    destruct (creates name) eqn:C; [|exists Panic, fs; split; [now constructor|discriminate]]. destruct (writes name) eqn:W.
    - destruct (res_mapM_cut (get_pixel im) ps (get_pixel_no_err im)) as [[l Hl]|(ps1 & q & ps2 & l & E & Hl & Hq)].
      + exists (Ok tt), (put_file name (dump_text (dump_table l)) fs). split; [now apply sheet_done|discriminate].
      + exists Panic, (put_file name (dump_text (dump_table l)) fs). split; [eapply sheet_bad_pixel; eauto|discriminate].
    - exists Panic, (put_file name [] fs). split; [|discriminate]. apply sheet_full with (ps1 := []) (ps2 := ps) (l := []); auto. exists (dump_text (dump_table [])). reflexivity.
  Qed.
  Lemma dump_file_no_err path m : dump_file path m <> Err.
  Proof. unfold dump_file, under_output. destruct (file_name path); discriminate. Qed.
  Lemma sheets_total path im : forall ms fs, Forall (fun m => snd m <> Err) ms -> exists out fs', write_sheets path im ms fs out fs' /\ out <> Err.
  Proof.
    induction ms as [|[m r] ms IH]; intros fs F; [exists (Ok tt), fs; split; [constructor|discriminate]|]. inversion F as [|? ? Hr F']; subst. cbn [snd] in Hr.
    destruct r as [ps| |]; [|now destruct Hr|exists Panic, fs; split; [constructor|discriminate]].
    destruct (dump_file path m) as [name| |] eqn:E; [|now apply dump_file_no_err in E|exists Panic, fs; split; [now apply sheets_no_name|discriminate]].
    destruct (sheet_total im ps name fs) as (out & fs1 & W & N). destruct out as [[]| |]; [|now destruct N|].
    - destruct (IH fs1 F') as (out & fs2 & W' & N'). exists out, fs2. split; [|exact N']. eapply sheets_more; eauto.
    - exists Panic, fs1. split; [|discriminate]. eapply sheets_stop; eauto.
  Qed.
  Lemma npot_no_err n : npot p n <> Err.
  Proof. unfold npot. cbv zeta. destruct (_ <? _)%N; [discriminate|]. destruct p; discriminate. Qed.
  Lemma methods_no_err im : Forall (fun m => snd m <> Err) (methods p scan im).
  Proof.
    unfold methods, positions_rect, positions_small, positions_large. pose proof (npot_no_err (im_w im)) as A. pose proof (npot_no_err (im_h im)) as B.
    constructor; [discriminate|]. destruct (npot p (im_w im)) as [x| |]; [| |]; [|now destruct A|]; cbn [res_bind];
      [destruct (npot p (im_h im)) as [y| |]; [|now destruct B|]; cbn [res_bind]|]; (constructor; [discriminate|constructor; [discriminate|constructor]]).
  Qed.
  Theorem dumps_total : forall paths fs, exists out fs', dumps paths fs out fs'.
  Proof.
    induction paths as [|path paths IH]; intros fs; [exists (Ok tt), fs; constructor|]. destruct (opens path) as [im|] eqn:O; [|exists Panic, fs; now constructor].
    destruct (sheets_total path im (methods p scan im) fs (methods_no_err im)) as (out & fs1 & W & N). destruct out as [[]| |]; [|now destruct N|].
    - destruct (IH fs1) as (out & fs2 & D). exists out, fs2. eapply dumps_more; eauto.
    - exists Panic, fs1. eapply dumps_stop; eauto.
  Qed.

  (** ** Whatever happens *)
  Notation partly := (partly scan creates writes).
  Lemma prefix_trans {A} (a b c : list A) : prefix a b -> prefix b c -> prefix a c.
  Proof. intros [x ->] [y ->]. exists (x ++ y). now rewrite app_assoc. Qed.
  Lemma sheet_prefix a b : prefix (sheet a) (sheet (a ++ b)).
  Proof. unfold sheet. rewrite map_app, concat_app. eexists. rewrite <- !app_assoc. reflexivity. Qed.
  Lemma mapM_prefix im ps1 ps2 l : Forall (inside (im_w im) (im_h im)) (ps1 ++ ps2) -> img_ok im -> res_mapM (get_pixel im) ps1 = Ok l -> l = map (pixel_at im) ps1.
  Proof. intros F Hi H. apply Forall_app in F as [F _]. rewrite get_pixels_ok in H by assumption. injection H as <-. reflexivity. Qed.
  Lemma sheet_any path im meth ps name fs out fs' : img_ok im -> planned im (meth, Ok ps) -> dump_file path meth = Ok name -> write_sheet im ps name fs out fs' ->
    out <> Err /\ (out = Ok tt -> partly path im name fs') /\ (out = Panic -> fs' name = fs name /\ creates name = false \/ partly path im name fs' /\ writes name = false) /\ forall f, f <> name -> fs' f = fs f.
  Proof.
    intros Hi (ps' & E & T & M & F) Hn W. cbn [fst snd] in E, T. injection E as <-.
    assert (P : forall t, prefix t (sheet (map (pixel_at im) ps)) -> (writes name = true -> t = sheet (map (pixel_at im) ps)) -> creates name = true -> partly path im name (put_file name t fs)).
    { intros t Ht Hw Hc. split; [exact Hc|]. exists meth, ps, t. split; [exact T|]. split; [exact Hn|]. split; [apply put_same|]. split; [exact Ht|exact Hw]. }
    inversion W as [C|l C Wr Hl|ps1 q ps2 l C Wr Hps Hl Hq|out' t ps1 ps2 l C Wr Hps Hl Ht Ho]; subst.
    - split; [discriminate|]. split; [discriminate|]. split; [auto|auto].
    - rewrite M in Hl. injection Hl as <-. rewrite dump_sheet. split; [discriminate|]. split; [|split; [discriminate|intros f Hf; now apply put_other]].
      intros _. apply P; [exists []; now rewrite app_nil_r|auto|exact C].
    - exfalso. apply Forall_app in F as [_ F]. inversion F as [|? ? [Fx Fy] _]; subst. pose proof (get_pixels_ok im [q] Hi ltac:(constructor; [split; assumption|constructor])) as G. cbn [res_mapM] in G. rewrite Hq in G. discriminate G.
    - pose proof (mapM_prefix im ps1 ps2 l F Hi Hl) as ->. rewrite dump_sheet in Ht. assert (Pt : prefix t (sheet (map (pixel_at im) (ps1 ++ ps2)))).
      { eapply prefix_trans; [exact Ht|]. rewrite map_app. apply sheet_prefix. }
      assert (Pp : partly path im name (put_file name t fs)) by (apply P; [exact Pt|congruence|exact C]).
      split; [destruct Ho as [-> |[-> _]]; discriminate|]. split; [intros _; exact Pp|]. split; [intros _; right; split; [exact Pp|exact Wr]|intros f Hf; now apply put_other].
  Qed.
  Notation three := [txt "rect"; txt "small"; txt "large"].
  Notation reason := (reason creates writes).
  Lemma sheets_any path im : img_ok im -> forall ms fs out fs', Forall (planned im) ms -> NoDup (map fst ms) -> incl (map fst ms) three -> write_sheets path im ms fs out fs' ->
    out <> Err
    /\ (forall f, (forall m, In m (map fst ms) -> dump_file path m <> Ok f) -> fs' f = fs f)
    /\ (forall f, fs' f = fs f \/ partly path im f fs')
    /\ (out = Ok tt -> forall m f, In m (map fst ms) -> dump_file path m = Ok f -> partly path im f fs')
    /\ (out = Panic -> reason path).
  Proof.
    intros Hi. induction ms as [|[m r] ms IH]; intros fs out fs' F N I W.
    - inversion W; subst. split; [discriminate|]. split; [auto|]. split; [auto|]. split; [intros _ m f []|discriminate].
    - inversion F as [|? ? Pm F']; subst. cbn [map fst] in N, I. inversion N as [|? ? Nm N']; subst. assert (Im : In m three) by (apply I; now left).
      inversion W as [|meth rest fs0 E|meth ps rest fs0 Dn E|meth ps name rest fs0 fs1 Dn Ws E|meth ps name rest fs0 fs1 out0 fs2 Dn Ws Wr E]; subst.
      + destruct Pm as (ps & Ep & _). discriminate.
      + split; [discriminate|]. split; [auto|]. split; [auto|]. split; [discriminate|]. intros _. left. eauto.
      + destruct (sheet_any path im m ps name fs Panic fs' Hi Pm Dn Ws) as (_ & _ & HP & HO). specialize (HP eq_refl). split; [discriminate|]. split; [|split; [|split; [discriminate|]]].
        * intros f Hf. apply HO. intros ->. apply (Hf m); [now left|exact Dn].
        * intros f. destruct (text_eqb f name) eqn:E; [apply text_eqb_eq in E; subst f|left; apply HO; intros ->; now rewrite (proj2 (text_eqb_eq name name) eq_refl) in E].
          destruct HP as [[HP _]|[HP _]]; [now left|now right].
        * intros _. right. exists m, name. split; [exact Im|]. split; [exact Dn|]. destruct HP as [[_ HP]|[_ HP]]; auto.
      + destruct (sheet_any path im m ps name fs (Ok tt) fs1 Hi Pm Dn Ws) as (_ & HK & _ & HO). specialize (HK eq_refl).
        destruct (IH fs1 out fs' F' N' (fun x Hx => I x (or_intror Hx)) Wr) as (I1 & I2 & I3 & I4 & I5).
        assert (Hname : fs' name = fs1 name).
        { apply I2. intros m' Hm' D. assert (m = m') by (apply (methods_differ path path m m' name); [exact Im|apply I; now right|exact Dn|exact D]). subst m'. contradiction. }
        assert (Kname : partly path im name fs').
        { destruct HK as (K1 & meth & ps' & t & K2 & K3 & K4 & K5). split; [exact K1|]. exists meth, ps', t. rewrite Hname. auto. }
        split; [exact I1|]. split; [|split; [|split; [|exact I5]]].
        * intros f Hf. transitivity (fs1 f); [apply I2; intros m' Hm'; apply Hf; now right|]. apply HO. intros ->. apply (Hf m); [now left|exact Dn].
        * intros f. destruct (text_eqb f name) eqn:E; [apply text_eqb_eq in E; subst f; now right|]. assert (Nf : f <> name) by (intros ->; now rewrite (proj2 (text_eqb_eq name name) eq_refl) in E).
          destruct (I3 f) as [J|J]; [left; now rewrite J, HO|now right].
        * intros Ho m' f [<-|Hm'] D; [|now apply (I4 Ho m')]. cbn [fst] in D. rewrite Dn in D. injection D as <-. exact Kname.
  Qed.
  Lemma methods_any path im fs out fs' : img_ok im -> (im_w im <= 2 ^ 31)%N -> (im_h im <= 2 ^ 31)%N -> write_sheets path im (methods p scan im) fs out fs' ->
    out <> Err /\ (forall f, ~ file_of path f -> fs' f = fs f) /\ (forall f, fs' f = fs f \/ partly path im f fs')
    /\ (out = Ok tt -> forall f, file_of path f -> partly path im f fs') /\ (out = Panic -> reason path).
  Proof.
    intros Hi Hw Hh W. destruct (sheets_any path im Hi (methods p scan im) fs out fs' (methods_planned im Hi Hw Hh)) as (A & B & C & D & G); try exact W.
    - rewrite methods_names. repeat constructor; cbn [In]; intros K; decompose [or] K; try contradiction; match goal with H : _ = _ |- _ => vm_compute in H; discriminate end.
    - rewrite methods_names. apply incl_refl.
    - rewrite methods_names in B, D. split; [exact A|]. split; [|split; [exact C|split; [|exact G]]].
      + intros f Hf. apply B. intros m Hm Dm. apply Hf. exists m. auto.
      + intros Ho f (m & Hm & Dm). now apply (D Ho m).
  Qed.

  (** ** All paths *)
  Theorem dumps_any : forall paths fs out fs', Forall (moderate opens) paths -> dumps paths fs out fs' -> out <> Err
    /\ forall f, fs' f = fs f \/ exists path im, In path paths /\ opens path = Some im /\ partly path im f fs'.
  Proof.
    intros paths fs out fs' F D. induction D as [fs|path paths fs O|path paths im fs fs' O W|path paths im fs fs1 out fs2 O W D IH]; inversion F as [|? ? Hp F']; subst.
    - split; [discriminate|auto].
    - split; [discriminate|auto].
    - destruct (Hp im O) as (Hi & Hw & Hh). destruct (methods_any path im _ _ _ Hi Hw Hh W) as (A & B & C & _ & _). split; [exact A|]. intros f. destruct (C f) as [C'|C']; [now left|].
      right. exists path, im. split; [now left|]. now split.
    - destruct (Hp im O) as (Hi & Hw & Hh). destruct (methods_any path im _ _ _ Hi Hw Hh W) as (_ & _ & C & _ & _). destruct (IH F') as (I1 & I2). split; [exact I1|].
      intros f. destruct (I2 f) as [J|(q & im' & J1 & J2 & J3)]; [|right; exists q, im'; split; [now right|now split]]. destruct (C f) as [C'|C'].
      + left. now rewrite J.
      + right. exists path, im. split; [now left|]. split; [exact O|]. destruct C' as (K1 & meth & ps & t & K2 & K3 & K4 & K5). split; [exact K1|]. exists meth, ps, t. rewrite J. auto.
  Qed.
  Theorem dumps_ok_paths : forall paths fs fs', Forall (moderate opens) paths -> dumps paths fs (Ok tt) fs' ->
    (forall before path after im meth ps f, paths = before ++ path :: after -> opens path = Some im -> traversal scan im meth ps -> dump_file path meth = Ok f ->
      (forall q, In q after -> dump_file q meth <> Ok f) -> exists t, fs' f = Some t /\ prefix t (sheet (map (pixel_at im) ps)) /\ (writes f = true -> t = sheet (map (pixel_at im) ps)))
    /\ (forall f, (forall path, In path paths -> ~ file_of path f) -> fs' f = fs f).
  Proof.
    induction paths as [|path paths IH]; intros fs fs' F D; [inversion D; subst; split; [intros [|? ?]; discriminate|auto]|].
    inversion D as [| | |? ? im ? fs1 ? ? O W D']; subst. inversion F as [|? ? Hp F']; subst. destruct (IH fs1 fs' F' D') as [I1 I2].
    destruct (Hp im O) as (Hi & Hw & Hh). destruct (methods_any path im _ _ _ Hi Hw Hh W) as (_ & B & _ & C & _). specialize (C eq_refl). split.
    - intros before q after im' meth ps f E O' T Df Hl. destruct before as [|b before]; cbn [app] in E; injection E as <- ->; [|now apply (I1 before q after im' meth)].
      rewrite O in O'. injection O' as <-. assert (Hm : In meth three) by (destruct T; cbn; auto).
      destruct (C f) as (_ & meth' & ps' & t & T' & Df' & K & Kp & Kw); [exists meth; auto|].
      assert (Hm' : In meth' three) by (destruct T'; cbn; auto). assert (meth = meth') by now apply (methods_differ path path meth meth' f). subst meth'.
      rewrite <- (traversal_unique scan im meth ps ps' T T') in *. exists t. split; [|auto].
      rewrite I2; [exact K|]. intros q Hq (m & Hm2 & Dm). assert (meth = m) by now apply (methods_differ path q meth m f). subst m. now apply (Hl q).
    - intros f Hf. transitivity (fs1 f); [apply I2; intros q Hq; apply Hf; now right|]. apply B. apply Hf. now left.
  Qed.
  Theorem dumps_abort : forall paths fs fs', Forall (moderate opens) paths -> dumps paths fs Panic fs' ->
    exists before path after fs1, paths = before ++ path :: after /\ dumps before fs (Ok tt) fs1 /\ (forall f, ~ file_of path f -> fs' f = fs1 f)
    /\ (forall f, fs' f = fs1 f \/ exists im, opens path = Some im /\ partly path im f fs') /\ (opens path = None \/ reason path).
  Proof.
    induction paths as [|path paths IH]; intros fs fs' F D; [inversion D|]. inversion F as [|? ? Hp F']; subst.
    inversion D as [|? ? ? O|? ? im ? ? O W|? ? im ? fs1 ? ? O W D']; subst.
    - exists [], path, paths, fs'. split; [reflexivity|]. split; [constructor|]. auto.
    - destruct (Hp im O) as (Hi & Hw & Hh). destruct (methods_any path im _ _ _ Hi Hw Hh W) as (_ & B & C & _ & G). exists [], path, paths, fs. split; [reflexivity|]. split; [constructor|].
      split; [exact B|]. split; [|right; now apply G]. intros f. destruct (C f) as [C'|C']; [now left|right; eauto].
    - destruct (IH fs1 fs' F' D') as (before & q & after & fs2 & -> & D2 & R). exists (path :: before), q, after, fs2. split; [reflexivity|]. split; [|exact R]. eapply dumps_more; eauto.
  Qed.
  (** Nothing stands in the way. *)
  Theorem dumps_succeed paths fs out fs' : Forall (moderate opens) paths -> (forall path, In path paths -> exists im, opens path = Some im) ->
    (forall path m, In path paths -> In m three -> exists f, dump_file path m = Ok f /\ creates f = true /\ writes f = true) -> dumps paths fs out fs' -> out = Ok tt.
  Proof.
    intros F Ho Hf D. destruct (dumps_any paths fs out fs' F D) as [NE _]. destruct out as [[]| |]; [reflexivity|now destruct NE|exfalso].
    destruct (dumps_abort paths fs fs' F D) as (before & path & after & fs1 & -> & _ & _ & _ & R). assert (I : In path (before ++ path :: after)) by (apply in_app_iff; right; now left).
    destruct R as [R|[(m & Hm & Dm)|(m & f & Hm & Dm & R)]].
    - destruct (Ho path I) as [im Hi]. congruence.
    - destruct (Hf path m I Hm) as (f & Df & _). congruence.
    - destruct (Hf path m I Hm) as (f' & Df & A & B). rewrite Dm in Df. injection Df as <-. destruct R; congruence.
  Qed.
End Proofs.
