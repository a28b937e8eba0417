(** * Proofs about the image files of the benchmark. *)
From Coq Require Import String Lia.
From Flocq Require Import BinarySingleNaN.
From Verif Require Import Base Prs Float Img HilbertC Select Bench BenchSpec BenchPar Special Images ImagesSpec Program ProgramSpec ProgramProofs.
Close Scope string_scope.
Open Scope list_scope.
Notation length := List.length.

Lemma put_same n o fs : put_picture n o fs n = o.
Proof. unfold put_picture. now rewrite N.eqb_refl. Qed.
Lemma put_other n o fs m : m <> n -> put_picture n o fs m = fs m.
Proof. intros H. unfold put_picture. now apply N.eqb_neq in H as ->. Qed.

Section Files.
  Variables (p : profile) (zero : f64) (c : text -> codec) (node : text -> N) (saves : text -> bool) (paths : list text) (fs : pictures).
  Notation job path := (measure_one p zero (c path) path (fs (node path)) (saves path)).
  Notation saved path := (to_save p zero c path (fs (node path))).
  Notation step := (istep p zero c node saves paths).
  Notation steps := (isteps p zero c node saves paths).
  Notation s0 := (i_init paths fs).

  (** The files that may be written to, from the files at the start *)
  Definition target (n : N) : Prop := exists path y, In path paths /\ saved path = Some y /\ belongs node path n.
  Definition good_task (path : text) (t : progress) : Prop :=
    match t with
    | PWaiting | PSkipped => True
    | POpened o => o = fs (node path)
    | PSaving n y r => belongs node path n /\ saved path = Some y /\ job path = Some r
    | PEnded r => job path = Some r \/ (under_output path (txt "png") = Panic /\ r = Panic /\ saved path <> None)
    end.
  Definition good_state (s : istate) : Prop :=
    length (i_tasks s) = length paths
    /\ (forall n, ~ target n -> i_files s n = fs n)
    /\ forall i path t, nth_error paths i = Some path -> nth_error (i_tasks s) i = Some t -> good_task path t.

  Lemma good_init : good_state s0.
  Proof.
    split; [|split]; cbn; [apply map_length|reflexivity|]. intros i path t _ H. rewrite nth_error_map in H. destruct (nth_error paths i); inversion H. exact I.
  Qed.

  Hypothesis Inputs : forall path, In path paths -> ~ target (node path).

  Lemma good_step s s' : good_state s -> step s s' -> good_state s'.
  Proof.
    intros (L & F & T) St.
    assert (U : forall i (t t' : progress) path, nth_error paths i = Some path -> nth_error (i_tasks s) i = Some t -> good_task path t' ->
      forall j q u, nth_error paths j = Some q -> nth_error (upd i t' (i_tasks s)) j = Some u -> good_task q u).
    { intros i t t' path Hp Ht G j q u Hq Hu. destruct (nth_upd_cases _ _ _ _ _ _ Ht Hu) as [[<- ->]|[D Hu']]; [congruence|eauto]. }
    destruct St; cbn [i_tasks i_files] in *; (split; [cbn [i_tasks]; rewrite ?upd_length; exact L|split; cbn [i_tasks i_files]]); try exact F; try exact T.
    - eapply U; eauto. cbn. apply F, Inputs. eapply nth_error_In; eauto.
    - intros j q u Hq Hu. destruct (nth_upd_cases _ _ _ _ _ _ H Hu) as [[<- ->]|[D Hu']]; [exact I|eauto].
    - eapply U; eauto. cbn. left. pose proof (T _ _ _ H H0) as G. cbn in G. now subst o.
    - eapply U; eauto. cbn. right. pose proof (T _ _ _ H H0) as G. cbn in G. subst o. split; [assumption|split; [reflexivity|congruence]].
    - intros n Hn. rewrite put_other; [now apply F|]. intros ->. apply Hn. exists path, y. split; [eapply nth_error_In; eauto|].
      pose proof (T _ _ _ H H0) as G. cbn in G. subst o. split; [assumption|]. now exists f.
    - eapply U; eauto. pose proof (T _ _ _ H H0) as G. cbn in G. subst o. split; [|split]; try assumption. now exists f.
    - intros m Hm. rewrite put_other; [now apply F|]. intros ->. apply Hm.
      assert (Hi : (i < length paths)%nat) by (rewrite <- L; apply nth_error_Some; congruence).
      destruct (nth_error paths i) as [path|] eqn:Hp; [|apply nth_error_None in Hp; lia].
      destruct (T _ _ _ Hp H) as (B & S & _). exists path, y. split; [eapply nth_error_In; eauto|]. now split.
    - intros m Hm. rewrite put_other; [now apply F|]. intros ->. apply Hm.
      destruct (T _ _ _ H H0) as (B & S & _). exists path, y. split; [eapply nth_error_In; eauto|]. now split.
    - destruct (T _ _ _ H H0) as (B & S & J). eapply U; eauto. now left.
  Qed.
  Lemma good_steps s s' : steps s s' -> good_state s -> good_state s'.
  Proof. induction 1; intros G; [exact G|]. eauto using good_step. Qed.

  (** The file of a task that nobody else writes to *)
  Section Saved.
    Variables (i : nat) (path : text) (n : N) (y : img).
    Hypotheses (Hp : nth_error paths i = Some path) (Hn : belongs node path n) (Hy : saved path = Some y) (Hs : saves path = true).
    Hypothesis Alone : forall j q, j <> i -> nth_error paths j = Some q -> ~ belongs node q n.
    Definition kept (s : istate) : Prop := good_state s /\ forall r, nth_error (i_tasks s) i = Some (PEnded r) -> i_files s n = Some y.
    Lemma kept_step s s' : kept s -> step s s' -> kept s'.
    Proof.
      intros [G K] St. split; [eapply good_step; eauto|]. destruct G as (L & F & T).
      assert (Sv : forall j m y' r, nth_error (i_tasks s) j = Some (PSaving m y' r) -> exists q, nth_error paths j = Some q /\ belongs node q m).
      { intros j m y' r Hj. assert (Hi : (j < length paths)%nat) by (rewrite <- L; apply nth_error_Some; congruence).
        destruct (nth_error paths j) as [q|] eqn:Hq; [|apply nth_error_None in Hq; lia]. exists q. split; [reflexivity|]. now destruct (T _ _ _ Hq Hj). }
      assert (Bn : forall m, belongs node path m -> m = n).
      { intros m (f & E & ->). destruct Hn as (f' & E' & ->). congruence. }
      destruct St; cbn [i_tasks i_files] in *.
      - intros r Hr. destruct (nth_upd_cases _ _ _ _ _ _ H0 Hr) as [[? ?]|[D Hr']]; [discriminate|eauto].
      - intros r Hr. destruct (nth_upd_cases _ _ _ _ _ _ H Hr) as [[? ?]|[D Hr']]; [discriminate|eauto].
      - intros r' Hr. destruct (nth_upd_cases _ _ _ _ _ _ H0 Hr) as [[<- ?]|[D Hr']]; [|eauto]. rewrite Hp in H. injection H as <-.
        pose proof (T _ _ _ Hp H0) as G. cbn in G. subst o. congruence.
      - intros r' Hr. destruct (nth_upd_cases _ _ _ _ _ _ H0 Hr) as [[<- ?]|[D Hr']]; [|eauto]. rewrite Hp in H. injection H as <-.
        destruct Hn as (f & E & _). congruence.
      - intros r' Hr. destruct (nth_upd_cases _ _ _ _ _ _ H0 Hr) as [[<- ?]|[D Hr']]; [discriminate|]. rewrite put_other; [eauto|].
        intros ->. eapply Alone; [exact D|exact H|]. now exists f.
      - intros r' Hr. rewrite put_other; [eauto|]. intros ->. destruct (Sv _ _ _ _ H) as (q & Hq & B).
        destruct (Nat.eq_dec i0 i) as [->|D]; [congruence|]. eapply Alone; eauto.
      - intros r' Hr. destruct (T _ _ _ H H0) as (B & S & J). destruct (nth_upd_cases _ _ _ _ _ _ H0 Hr) as [[<- ?]|[D Hr']].
        + rewrite Hp in H. injection H as <-. pose proof (Bn _ B) as ->. rewrite put_same. assert (y0 = y) by congruence. subst y0. apply H1; [exact Hs|].
          intros j y' r'' D Hj. destruct (Sv _ _ _ _ Hj) as (q & Hq & Bq). eapply Alone; [exact D|exact Hq|exact Bq].
        + rewrite put_other; [eauto|]. intros ->. eapply Alone; [exact D|exact H|exact B].
    Qed.
    Lemma kept_steps s s' : steps s s' -> kept s -> kept s'.
    Proof. induction 1; intros G; [exact G|]. eauto using kept_step. Qed.
    Lemma kept_init : kept s0.
    Proof.
      split; [exact good_init|]. cbn. intros r H. rewrite nth_error_map in H. destruct (nth_error paths i); discriminate.
    Qed.
  End Saved.

  (** ** Every run can be brought to an end *)
  Definition weight (t : progress) : nat := match t with PWaiting => 3 | POpened _ => 2 | PSaving _ _ _ => 1 | _ => 0 end.
  Fixpoint weights (l : list progress) : nat := match l with [] => 0 | t :: l => weight t + weights l end.
  Lemma weights_upd t t' : forall l i, nth_error l i = Some t -> (weight t' < weight t)%nat -> (weights (upd i t' l) < weights l)%nat.
  Proof. induction l as [|u l IH]; intros [|i] H W; cbn in *; try discriminate; [injection H as ->; lia|]. specialize (IH _ H W). lia. Qed.
  Lemma can_end : (forall path, In path paths -> exists r, job path = Some r) -> forall s, good_state s -> exists s', steps s s' /\ Forall over (i_tasks s').
  Proof.
    intros J s. remember (weights (i_tasks s)) as w eqn:W. revert s W. induction w as [w IH] using (well_founded_induction Wf_nat.lt_wf). intros s -> G.
    destruct (Forall_dec over) with (l := i_tasks s) as [O|O].
    { intros [| | | |]; cbn; auto. }
    { exists s. split; [constructor|exact O]. }
    assert (X : exists i t, nth_error (i_tasks s) i = Some t /\ ~ over t).
    { clear - O. induction (i_tasks s) as [|t l IHl]; [destruct O; constructor|]. destruct t as [|o|n y r|r|]; try (exists 0%nat; eexists; split; [reflexivity|cbn; tauto]).
      all: destruct IHl as (i & u & Hi & Hu); [intros F; apply O; constructor; [exact I|exact F]|exists (S i), u; now split]. }
    destruct X as (i & t & Hi & Ht). pose proof G as (L & F & T).
    assert (Hl : (i < length paths)%nat) by (rewrite <- L; apply nth_error_Some; congruence).
    destruct (nth_error paths i) as [path|] eqn:Hp; [|apply nth_error_None in Hp; lia]. pose proof (T _ _ _ Hp Hi) as Gt.
    assert (St : exists s', step s s' /\ (weights (i_tasks s') < weights (i_tasks s))%nat).
    { destruct s as [ts f]. cbn [i_tasks] in *. destruct t as [|o|n y r|r|]; cbn in Gt, Ht; try tauto.
      - eexists. split; [eapply istep_open; eauto|]. cbn [i_tasks]. eapply weights_upd; eauto.
      - subst o. destruct (J path) as [r Jr]; [eapply nth_error_In; eauto|]. destruct (saved path) as [y|] eqn:Sv.
        + destruct (under_output path (txt "png")) as [g| |] eqn:Uo.
          * eexists. split; [eapply (istep_create p zero c node saves paths) with (v := None); eauto|]. cbn [i_tasks]. eapply weights_upd; eauto.
          * exfalso. unfold under_output in Uo. destruct (file_name path); discriminate.
          * eexists. split; [eapply istep_no_name; eauto|]. cbn [i_tasks]. eapply weights_upd; eauto. cbn. lia.
        + eexists. split; [eapply istep_end; eauto|]. cbn [i_tasks]. eapply weights_upd; eauto. cbn. lia.
      - eexists. split; [eapply (istep_saved p zero c node saves paths) with (v := Some y); eauto|]. cbn [i_tasks]. eapply weights_upd; eauto. }
    destruct St as (s' & St & W). destruct (IH _ W s' eq_refl) as (s'' & R & O'); [eapply good_step; eauto|]. exists s''. split; [econstructor; eauto|exact O'].
  Qed.
End Files.

(** ** The statements *)
Lemma wrong_changed p zero c im y : wrong_image p zero c im = Some y -> changed p zero c im y.
Proof.
  unfold wrong_image, changed. destruct (enc c im) as [[data| |]|]; try discriminate. destruct (raw_size p im); try discriminate.
  destruct (dec c data) as [[z| |]|] eqn:D; try discriminate. destruct (compute_error p zero im z) as [e| |] eqn:C; try discriminate.
  destruct (feq e (f64_of_N 0)) eqn:Z; cbn [negb]; try discriminate. intros [= <-]. exists data, e. auto.
Qed.
Lemma changed_wrong p zero c im y name sv r : changed p zero c im y -> measure_one p zero c name (Some im) sv = Some r -> r <> Panic -> wrong_image p zero c im = Some y.
Proof.
  intros (data & e & En & De & C & Z) M NP. unfold measure_one in M. unfold wrong_image. rewrite En in *.
  destruct (raw_size p im) eqn:R; [|exfalso|injection M as <-; now destruct NP].
  - rewrite De, C in *. rewrite Z. reflexivity.
  - unfold raw_size in R. destruct (ufit p (2 ^ 32) (im_w im * im_h im)) as [k| |] eqn:U; cbn in R; unfold ufit in *; destruct p; cbn in *;
      repeat match goal with H : context [if ?b then _ else _] |- _ => destruct b end; discriminate.
Qed.
Section Top.
  Variables (p : profile) (zero : f64) (node : text -> N) (saves : text -> bool) (paths : list text) (fs : pictures).

  Lemma apart_inputs c : apart node paths -> forall path, In path paths -> ~ target p zero c node paths fs (node path).
  Proof. intros A q Hq (q' & y & Hq' & _ & B). exact (A _ _ _ Hq Hq' B eq_refl). Qed.
  Lemma independent E E' cc s i path r : apart node paths ->
    isteps p zero (fun q => any (E q) (E' q) cc) node saves paths (i_init paths fs) s ->
    nth_error paths i = Some path -> nth_error (i_tasks s) i = Some (PEnded r) ->
    Program.job p zero (fun q => fs (node q)) saves E E' cc path = Some r \/ (file_name path = None /\ r = Panic).
  Proof.
    intros A St Hp Hr. destruct (good_steps _ _ _ _ _ _ _ (apart_inputs _ A) _ _ St (good_init _ _ _ _ _ _ _)) as (_ & _ & T).
    destruct (T _ _ _ Hp Hr) as [J|(U & -> & _)]; [left; exact J|right]. split; [|reflexivity]. unfold under_output in U. destruct (file_name path); [discriminate|reflexivity].
  Qed.
  Lemma only_outputs c s n : apart node paths -> isteps p zero c node saves paths (i_init paths fs) s ->
    (forall path im y, In path paths -> fs (node path) = Some im -> changed p zero (c path) im y -> ~ belongs node path n) -> i_files s n = fs n.
  Proof.
    intros A St D. destruct (good_steps _ _ _ _ _ _ _ (apart_inputs _ A) _ _ St (good_init _ _ _ _ _ _ _)) as (_ & F & _). apply F.
    intros (path & y & Hp & Sv & B). unfold to_save in Sv. destruct (fs (node path)) as [im|] eqn:O; [|discriminate].
    exact (D path im y Hp O (wrong_changed _ _ _ _ _ Sv) B).
  Qed.
  Lemma is_saved c s i path im y n r : apart node paths -> isteps p zero c node saves paths (i_init paths fs) s ->
    nth_error paths i = Some path -> fs (node path) = Some im -> changed p zero (c path) im y ->
    nth_error (i_tasks s) i = Some (PEnded r) -> r <> Panic -> saves path = true ->
    belongs node path n -> (forall j q, j <> i -> nth_error paths j = Some q -> ~ belongs node q n) -> i_files s n = Some y.
  Proof.
    intros A St Hp O C Hr NP Sv B Al. pose proof (apart_inputs c A) as In'.
    destruct (good_steps _ _ _ _ _ _ _ In' _ _ St (good_init _ _ _ _ _ _ _)) as (_ & _ & T).
    destruct (T _ _ _ Hp Hr) as [J|(_ & -> & _)]; [|now destruct NP]. rewrite O in J.
    assert (W : to_save p zero c path (fs (node path)) = Some y) by (rewrite O; eapply changed_wrong; eauto).
    refine (proj2 (kept_steps _ _ _ _ _ _ _ In' i path n y Hp B W Sv Al _ _ St (kept_init _ _ _ _ _ _ _ _ _ _ _ Hp)) r Hr).
  Qed.
  Lemma ends c : (forall path, In path paths -> exists r, measure_one p zero (c path) path (fs (node path)) (saves path) = Some r) ->
    apart node paths -> forall s, isteps p zero c node saves paths (i_init paths fs) s -> exists s', isteps p zero c node saves paths s s' /\ Forall over (i_tasks s').
  Proof. intros J A s St. apply (can_end _ _ _ _ _ _ _ (apart_inputs c A) J). exact (good_steps _ _ _ _ _ _ _ (apart_inputs c A) _ _ St (good_init _ _ _ _ _ _ _)). Qed.
  (** Nothing is saved: whatever the paths lead to *)
  Lemma nothing_saved c s : (forall path im y, In path paths -> fs (node path) = Some im -> ~ changed p zero (c path) im y) ->
    isteps p zero c node saves paths (i_init paths fs) s ->
    (forall n, i_files s n = fs n) /\ forall i path r, nth_error paths i = Some path -> nth_error (i_tasks s) i = Some (PEnded r) ->
      measure_one p zero (c path) path (fs (node path)) (saves path) = Some r.
  Proof.
    intros H St. assert (Nt : forall n, ~ target p zero c node paths fs n).
    { intros n (path & y & Hp & Sv & _). unfold to_save in Sv. destruct (fs (node path)) as [im|] eqn:O; [|discriminate]. exact (H path im y Hp O (wrong_changed _ _ _ _ _ Sv)). }
    destruct (good_steps _ _ _ _ saves _ _ (fun q _ => Nt _) _ _ St (good_init _ _ _ _ _ _ _)) as (_ & F & T). split; [intros n; apply F, Nt|].
    intros i path r Hp Hr. destruct (T _ _ _ Hp Hr) as [J|(_ & _ & X)]; [exact J|]. destruct X. unfold to_save. destruct (fs (node path)) as [im|] eqn:O; [|reflexivity].
    destruct (wrong_image p zero (c path) im) as [y|] eqn:W; [|reflexivity]. destruct (H path im y (nth_error_In _ _ Hp) O (wrong_changed _ _ _ _ _ W)).
  Qed.
End Top.
Lemma measured_unchanged p zero c name im sv n size ratio e y : measure_one p zero c name (Some im) sv = Some (Ok (n, size, ratio, e)) -> feq e (f64_of_N 0) = true -> ~ changed p zero c im y.
Proof.
  unfold measure_one. intros M Z (data & e' & En & De & C & Z'). rewrite En in M. destruct (raw_size p im); try discriminate. rewrite De, C, Z' in M.
  cbn [negb] in M. destruct sv; cbn [negb] in M; [|discriminate]. destruct (lossless c); [discriminate|]. injection M as _ _ _ <-. congruence.
Qed.
Lemma lossless_files p sg node saves paths fs E c : any_is_lossless c = true -> (c = Zip ZBack -> Forall (tiny (fun q => fs (node q))) paths) -> Forall (fine (fun q => fs (node q)) E) paths ->
  exists f0, forall E', (forall path, In path paths -> e_scan (E' path) = e_scan (E path) /\ (2 <= e_stack (E' path))%nat /\ (f0 <= e_fuel (E' path))%nat) ->
  forall s, isteps p (B754_zero sg) (fun q => any (E q) (E' q) c) node saves paths (i_init paths fs) s ->
  (forall n, i_files s n = fs n) /\ forall i path r, nth_error paths i = Some path -> nth_error (i_tasks s) i = Some (PEnded r) ->
    exists rc, r = Ok rc /\ Program.job p (B754_zero sg) (fun q => fs (node q)) saves E E' c path = Some (Ok rc) /\ feq (rec_error rc) (f64_of_N 0) = true.
Proof.
  intros Hl Hz F. destruct (lossless_jobs p (fun _ => None) sg (fun q => fs (node q)) saves E c Hl paths Hz F) as [f0 J]. exists f0. intros E' HE s St. specialize (J E' HE).
  destruct (nothing_saved p (B754_zero sg) node saves paths fs (fun q => any (E q) (E' q) c) s) as [A B]; [|exact St|].
  { intros path im y Hp O. destruct (J path Hp) as ([[[n size] ratio] e] & Jr & Z). unfold Program.job in Jr. rewrite O in Jr. cbn [rec_error] in Z. eapply measured_unchanged; eauto. }
  split; [exact A|]. intros i path r Hp Hr. destruct (J path (nth_error_In _ _ Hp)) as (rc & Jr & Z). pose proof (B i path r Hp Hr) as M. unfold Program.job in Jr. rewrite M in Jr. injection Jr as ->.
  exists rc. repeat (split; auto).
Qed.
