(** * The data that the image decoders accept: colours along a traversal. *)
From Coq Require Import ZifyBool ZifyNat ZifyN.
From Verif Require Import Base Ser SerSpec SerProofs Bit BitSpec BitProofs Utils UtilsProofs Huf HufSpec HufProofs Dict DictSpec DictProofs Back BackSpec Img Float HilbertC
  CodecSpec CodecBytes CodecTop CodecFinal CodecZip CodecHilbert Kmeans ClusterC ClusterSpec Prs Select Bench ForeignSpec ForeignKeeps ForeignTop ForeignZip HufTop AcceptSpec AcceptProofs.

(** ** Painting *)
Fixpoint col_of (ps : list (N * N)) (cs : list (rgb N)) (q : N * N) : rgb N :=
  match ps, cs with p :: ps, c :: cs => if pos_eqb q p then c else col_of ps cs q | _, _ => black end.
Lemma col_of_map ps : forall cs, NoDup ps -> (length cs <= length ps)%nat -> map (col_of ps cs) (firstn (length cs) ps) = cs.
Proof.
  induction ps as [|p ps IH]; intros [|c cs] HN HL; try reflexivity; [cbn in HL; lia|]. inversion HN as [|? ? Hp HN']; subst. cbn [length firstn map].
  f_equal; [cbn [col_of]; now rewrite (proj2 (pos_eqb_ok p p) eq_refl)|].
  etransitivity; [|exact (IH cs HN' ltac:(cbn in HL; lia))]. apply map_ext_in. intros q Hq. cbn [col_of]. destruct (pos_eqb q p) eqn:E; [|reflexivity].
  apply pos_eqb_ok in E as ->. exfalso. apply Hp. rewrite <- (firstn_skipn (length cs) ps). apply in_app_iff. now left.
Qed.
Definition blank (w h : N) : list (rgb N) := repeat black (N.to_nat (w * h)).
Lemma painted_shows w h ps cs : visits_all w h ps -> shows ps cs (from_rgb w h (painted w ps cs (blank w h))).
Proof.
  intros HV. pose proof (visits_inside _ _ _ HV) as HI. destruct HV as [HN HV]. unfold painted. rewrite combine_firstn_l.
  set (cs' := firstn (length ps) cs).
  assert (L' : (length cs' <= length ps)%nat) by (unfold cs'; rewrite firstn_length; lia).
  assert (LM : length cs' = Nat.min (length ps) (length cs)) by (unfold cs'; apply firstn_length).
  change (fold_left _ (combine ps cs') (blank w h)) with (painted w ps cs' (blank w h)). unfold shows. fold cs'.
  rewrite <- (col_of_map ps cs' HN L') at 1. set (col := col_of ps cs').
  assert (K : forall p, In p ps -> to_rgb (pixel_at (from_rgb w h (painted w ps (map col (firstn (length cs') ps)) (blank w h))) p)
              = if existsb (pos_eqb p) (firstn (length cs') ps) then col p else black).
  { intros [x y] Hp. rewrite Forall_forall in HI. destruct (HI _ Hp) as [Hx Hy]. cbn [fst snd] in *. unfold pixel_at. cbn [fst snd from_rgb im_w im_px].
    pose proof (painted_nth w h ps col (length cs') (proj2 (Forall_forall _ _) HI) (blank w h) x y Hx Hy (repeat_length _ _)) as G.
    set (b := painted w ps (map col (firstn (length cs') ps)) (blank w h)) in *.
    assert (LB : length b = N.to_nat (w * h)) by (unfold b; rewrite painted_length; apply repeat_length).
    pose proof (px_index_lt w h x y Hx Hy) as HK.
    rewrite (nth_indep _ _ (black, 255%N)) by (rewrite map_length; lia). rewrite (map_nth (fun c : rgb N => (c, 255%N))). unfold to_rgb. cbn [fst].
    assert (G2 : nth_error b (px_index w x y) = Some (nth (px_index w x y) b black)) by (apply nth_error_nth'; lia). rewrite G in G2.
    destruct (existsb (pos_eqb (x, y)) (firstn (length cs') ps)); [congruence|].
    unfold blank in G2. rewrite nth_repeat' in G2 by lia. congruence. }
  unfold colours. rewrite (map_ext_in _ _ _ K). rewrite <- (firstn_skipn (length cs') ps) at 1. rewrite map_app. f_equal.
  - etransitivity; [|exact (col_of_map ps cs' HN L')]. apply map_ext_in. intros q Hq. now rewrite (proj2 (existsb_pos _ _) Hq).
  - replace (length ps - length cs)%nat with (length (skipn (length cs') ps)) by (rewrite skipn_length; lia).
    assert (D : forall q, In q (skipn (length cs') ps) -> existsb (pos_eqb q) (firstn (length cs') ps) = false).
    { intros q Hq. destruct (existsb (pos_eqb q) (firstn (length cs') ps)) eqn:E; [|reflexivity]. apply existsb_pos in E.
      rewrite <- (firstn_skipn (length cs') ps) in HN. apply NoDup_app_inv in HN as (_ & _ & HD). now destruct (HD q E). }
    revert D. generalize (skipn (length cs') ps). intros l D. induction l as [|q l IH]; [reflexivity|]. cbn [map length repeat].
    rewrite (D q (or_introl eq_refl)). f_equal. apply IH. intros r Hr. apply D. now right.
Qed.
Lemma shows_unique ps cs a b : visits_all (im_w a) (im_h a) ps -> img_ok a -> is_opaque a -> img_ok b -> is_opaque b -> im_w a = im_w b -> im_h a = im_h b ->
  shows ps cs a -> shows ps cs b -> a = b.
Proof.
  intros HV Ha Oa Hb Ob Ew Eh Sa Sb. rewrite <- (proj2 (opaque_id a) Oa), <- (proj2 (opaque_id b) Ob).
  rewrite <- (painted_opaque a ps Ha HV). rewrite Ew, Eh in HV. rewrite <- (painted_opaque b ps Hb HV). unfold shows in *. now rewrite Sa, Sb, Ew, Eh.
Qed.
Definition end_res {A} (e : ending) : res A := match e with Finished => Err | Aborted => Panic end.
Definition drawn (w h : N) (ps : list (N * N)) (cs : list (rgb N)) (e : ending) (got : res img) : Prop :=
  got <> Err /\ forall im, got = Ok im <-> img_ok im /\ is_opaque im /\ im_w im = w /\ im_h im = h /\ suffices (length ps) cs e /\ shows ps cs im.
Lemma paint_any {T} (nextc : nextf T (rgb N)) w h ps s cs e : buffer_fits w h -> visits_all w h ps -> Forall rgb_ok cs ->
  stops nextc s cs (end_res e) \/ (exists s', yields nextc s cs s' /\ (length ps <= length cs)%nat) ->
  drawn w h ps cs e (res_bind (paint nextc w h ps s (blank w h)) (fun buf => Ok (from_rgb w h buf))).
Proof.
  intros (Hw & Hh & H3) HV HC HS. unfold drawn. set (got := res_bind _ _). pose proof (visits_inside _ _ _ HV) as HI.
  set (J := from_rgb w h (painted w ps cs (blank w h))).
  assert (HJ : img_ok J /\ is_opaque J).
  { apply made_ok; auto; [rewrite painted_length; unfold blank; rewrite repeat_length; apply N2Nat.id|].
    assert (G : forall ps cs buf, Forall rgb_ok cs -> Forall rgb_ok buf -> Forall rgb_ok (painted w ps cs buf)).
    { clear. induction ps as [|p ps IH]; intros [|c cs] buf HC HB; try exact HB. apply Forall_cons_iff in HC as [Hc HC].
      unfold painted. cbn [combine fold_left fst snd]. apply IH; auto using set_nth_Forall. }
    apply G; [exact HC|]. apply Forall_forall. intros c Hc. apply repeat_spec in Hc as ->. exact black_ok. }
  assert (HJs : shows ps cs J) by now apply painted_shows.
  assert (G : (got = Ok J /\ suffices (length ps) cs e) \/ (got = Panic /\ ~ suffices (length ps) cs e)).
  { unfold got, suffices. destruct (Nat.lt_ge_cases (length cs) (length ps)) as [L|L].
    - destruct HS as [HS|[s' [_ HL]]]; [|lia]. rewrite (paint_stops nextc w h ps cs s _ _ HI HS) by (try exact L; intros c; destruct e; discriminate).
      destruct e; cbn [end_res res_bind]; [left; auto|right; split; [reflexivity|]]. intros [E|E]; [discriminate|lia].
    - left. split; [|auto]. assert (Y : exists s', yields nextc s cs s') by (destruct HS as [[s' [? [HS _]]]|[s' [HS _]]]; eauto). destruct Y as [s' Y].
      rewrite (paint_yields nextc w h ps cs s s' _ HI Y L). reflexivity. }
  split; [destruct G as [[-> _]|[-> _]]; discriminate|]. intros im. destruct G as [[-> G]|[-> G]]; split; try discriminate.
  - intros [= <-]. repeat (split; [apply HJ || reflexivity || assumption|]). exact HJs.
  - intros (Hi & Ho & Ew & Eh & _ & Hs). f_equal. exact (shows_unique ps cs J im HV (proj1 HJ) (proj2 HJ) Hi Ho (eq_sym Ew) (eq_sym Eh) HJs Hs).
  - intros (_ & _ & _ & _ & Hs & _). contradiction.
Qed.
