(** * The benchmark under every schedule. *)
From Coq Require Import Permutation.
From Verif Require Import Base Bench BenchSpec PrsProofs.

(** ** Lists *)
Lemma nth_upd_same {A} (x : A) : forall l i y, nth_error l i = Some y -> nth_error (upd i x l) i = Some x.
Proof. induction l as [|z l IH]; intros [|i] y H; try discriminate; [reflexivity|]. exact (IH i y H). Qed.
Lemma nth_upd_other {A} (x : A) : forall l i j, i <> j -> nth_error (upd i x l) j = nth_error l j.
Proof. induction l as [|z l IH]; intros [|i] [|j] H; try reflexivity; [congruence|]. apply IH. congruence. Qed.
Lemma upd_length {A} (x : A) : forall l i, length (upd i x l) = length l.
Proof. induction l as [|z l IH]; intros [|i]; try reflexivity. cbn. now rewrite IH. Qed.
Lemma nth_upd_cases {A} (x : A) l i j y t : nth_error l i = Some y -> nth_error (upd i x l) j = Some t -> (i = j /\ t = x) \/ (i <> j /\ nth_error l j = Some t).
Proof.
  intros Hi Hj. destruct (Nat.eq_dec i j) as [<-|N].
  - left. rewrite (nth_upd_same x l i y Hi) in Hj. injection Hj as <-. now split.
  - right. rewrite nth_upd_other in Hj by exact N. now split.
Qed.

(** ** Records written so far *)
Definition wrote (t : tstate) : bool := match t with Written | Done => true | _ => false end.
Definition headed (t : tstate) : bool := match t with Headed _ => true | _ => false end.
Definition crashed (t : tstate) : bool := match t with Crashed => true | _ => false end.
Fixpoint recs (ts : list tstate) (js : list (res record)) : list record :=
  match ts, js with
  | t :: ts, j :: js => (if wrote t then match j with Ok r => [r] | _ => [] end else []) ++ recs ts js
  | _, _ => []
  end.
Lemma recs_upd_same x : forall ts js i t, nth_error ts i = Some t -> wrote x = wrote t -> recs (upd i x ts) js = recs ts js.
Proof.
  induction ts as [|t0 ts IH]; intros js [|i] t Hi W; try discriminate.
  - injection Hi as ->. destruct js; cbn; [reflexivity|]. now rewrite W.
  - destruct js; cbn; [reflexivity|]. f_equal. eapply IH; [exact Hi|exact W].
Qed.
Lemma recs_upd_write x : forall ts js i t r, nth_error ts i = Some t -> nth_error js i = Some (Ok r) -> wrote t = false -> wrote x = true ->
  Permutation (recs (upd i x ts) js) (r :: recs ts js).
Proof.
  induction ts as [|t0 ts IH]; intros [|j js] [|i] t r Hi Hj W W'; try discriminate.
  - injection Hi as ->. injection Hj as ->. cbn. rewrite W, W'. cbn. apply Permutation_refl.
  - cbn. etransitivity; [apply Permutation_app_head; apply (IH js i t r Hi Hj W W')|]. symmetry. apply Permutation_middle.
Qed.
Lemma recs_nil : forall ts js, Forall (fun t => wrote t = false) ts -> recs ts js = [].
Proof. intros ts js H. revert js. induction H as [|t ts Ht _ IH]; intros [|j js]; try reflexivity. cbn. now rewrite Ht, IH. Qed.
Lemma recs_part : forall ts js, exists rest, Permutation (recs ts js ++ rest) (successes js).
Proof.
  induction ts as [|t ts IH]; intros [|j js]; [exists []|exists (successes (j :: js))|exists []|]; try apply Permutation_refl.
  destruct (IH js) as [rest P]. cbn [recs successes]. destruct (wrote t).
  - exists rest. destruct j as [r| |]; cbn; [now constructor|exact P|exact P].
  - destruct j as [r| |]; [exists (r :: rest)|exists rest|exists rest]; cbn; [|exact P|exact P].
    etransitivity; [symmetry; apply Permutation_middle|]. now constructor.
Qed.

(** ** The invariant *)
Definition critical (t : tstate) : bool := match t with Locked _ | Headed _ | Ready _ | Written => true | _ => false end.
(** Tasks past lines 67-71 *)
Definition owner (t : tstate) : bool := match t with Ready _ | Written | Done => true | _ => false end.
Definition agrees (ts : list tstate) (t : tstate) (j : res record) : Prop :=
  match t with
  | Waiting => True
  | Measured r | Locked r | Headed r | Ready r => j = Ok r
  | Written | Done => exists r, j = Ok r
  | Failed => j = Err
  | Crashed => j = Panic
  | Skipped => In Crashed ts
  end.
Record binv (jobs : list (res record)) (s : bstate) : Prop := {
  bi_len : length (b_tasks s) = length jobs;
  bi_agree : forall i t j, nth_error (b_tasks s) i = Some t -> nth_error jobs i = Some j -> agrees (b_tasks s) t j;
  bi_lock : forall i t, nth_error (b_tasks s) i = Some t -> critical t = true -> b_lock s = Some i;
  bi_held : forall i, b_lock s = Some i -> exists t, nth_error (b_tasks s) i = Some t /\ critical t = true;
  bi_owner : b_flag s = existsb owner (b_tasks s);
  bi_headed : b_flag s = true -> forall i t, nth_error (b_tasks s) i = Some t -> headed t = false;
  bi_out : exists l, Permutation l (recs (b_tasks s) jobs)
    /\ b_out s = (if b_flag s || existsb headed (b_tasks s) then [Header] else []) ++ map Row l }.

Lemma agrees_upd ts i x y t j : nth_error ts i = Some y -> crashed y = false -> agrees ts t j -> agrees (upd i x ts) t j.
Proof.
  intros Hi Hc. destruct t; cbn; try exact (fun H => H). intros H. apply In_nth_error in H as [k Hk]. destruct (Nat.eq_dec i k) as [<-|N].
  - rewrite Hi in Hk. injection Hk as ->. discriminate.
  - apply nth_error_In with k. now rewrite nth_upd_other.
Qed.
Lemma existsb_upd f (x y : tstate) : forall ts i, nth_error ts i = Some y -> f x = f y -> existsb f (upd i x ts) = existsb f ts.
Proof.
  induction ts as [|t ts IH]; intros [|i] H E; try discriminate.
  - injection H as ->. cbn. now rewrite E.
  - cbn. now rewrite (IH i H E).
Qed.
Lemma existsb_none f (ts : list tstate) : (forall i t, nth_error ts i = Some t -> f t = false) -> existsb f ts = false.
Proof.
  intros H. destruct (existsb f ts) eqn:E; [|reflexivity]. apply existsb_exists in E as (t & Ht & E). apply In_nth_error in Ht as [i Hi].
  rewrite (H i t Hi) in E. discriminate.
Qed.
Lemma existsb_upd_true f (x y : tstate) : forall ts i, nth_error ts i = Some y -> f x = true -> existsb f (upd i x ts) = true.
Proof.
  intros ts i H E. apply existsb_exists. exists x. split; [|exact E]. apply nth_error_In with i. now apply nth_upd_same with y.
Qed.

Lemma existsb_upd_mono f (x y : tstate) : forall ts i, nth_error ts i = Some y -> f y = false -> existsb f ts = true -> existsb f (upd i x ts) = true.
Proof.
  intros ts i H E X. apply existsb_exists in X as (t & Ht & X). apply In_nth_error in Ht as [k Hk]. apply existsb_exists. exists t. split; [|exact X].
  apply nth_error_In with k. rewrite nth_upd_other; [exact Hk|]. intros <-. congruence.
Qed.
Lemma unset jobs s : binv jobs s -> b_flag s = false -> forall i t, nth_error (b_tasks s) i = Some t -> owner t = false.
Proof.
  intros I F i t Hi. rewrite (bi_owner _ _ I) in F. destruct (owner t) eqn:E; [|reflexivity].
  rewrite <- F. symmetry. apply existsb_exists. exists t. split; [now apply nth_error_In with i|exact E].
Qed.

(** A step of a task that changes neither the lock, the flag, nor the output *)
Lemma binv_quiet jobs s i y x : binv jobs s -> nth_error (b_tasks s) i = Some y -> crashed y = false ->
  wrote x = wrote y -> headed x = headed y -> critical x = critical y ->
  (owner x = owner y \/ b_flag s = true /\ owner y = false) ->
  (forall j, nth_error jobs i = Some j -> agrees (upd i x (b_tasks s)) x j) -> binv jobs (set_task i x s).
Proof.
  intros [I1 I2 I3 I4 I5 I6 I7] Hy C W Hh K U A. split; cbn.
  - now rewrite upd_length.
  - intros k t j Hk Hj. destruct (nth_upd_cases x _ i k y t Hy Hk) as [[<- ->]|[N Hk']]; [now apply A|].
    apply agrees_upd with y; [exact Hy|exact C|]. now apply I2 with k.
  - intros k t Hk Ht. destruct (nth_upd_cases x _ i k y t Hy Hk) as [[<- ->]|[N Hk']]; [|now apply I3 with t].
    apply I3 with y; [exact Hy|congruence].
  - intros k Hk. destruct (I4 k Hk) as (t & Ht & Kt). destruct (Nat.eq_dec i k) as [<-|N].
    + exists x. split; [now apply nth_upd_same with y|]. rewrite Hy in Ht. injection Ht as <-. congruence.
    + exists t. rewrite nth_upd_other by exact N. now split.
  - destruct U as [U|[F U]]; [rewrite (existsb_upd owner x y _ i Hy U); exact I5|]. rewrite (existsb_upd_mono owner x y _ i Hy U); congruence.
  - intros F k t Hk. destruct (nth_upd_cases x _ i k y t Hy Hk) as [[<- ->]|[N Hk']]; [|now apply I6 with k].
    rewrite Hh. now apply I6 with i.
  - destruct I7 as (l & P & E). exists l. rewrite (recs_upd_same x _ jobs i y Hy W), (existsb_upd headed x y _ i Hy Hh). now split.
Qed.

Lemma binv_step jobs s s' : binv jobs s -> bstep jobs s s' -> binv jobs s'.
Proof.
  intros I H. destruct H as [i r s Ht Hj|i s Ht Hj|i s Ht Hj|i s Ht Hc|i r s Ht Hl|i r s Ht Hf|i r s Ht|i r s Ht Hf|i r s Ht|i s Ht].
  - apply binv_quiet with Waiting; try assumption; try reflexivity; [now left|]. intros j E. cbn. congruence.
  - apply binv_quiet with Waiting; try assumption; try reflexivity; [now left|]. intros j E. cbn. congruence.
  - apply binv_quiet with Waiting; try assumption; try reflexivity; [now left|]. intros j E. cbn. congruence.
  - apply binv_quiet with Waiting; try assumption; try reflexivity; [now left|]. intros j E.
    apply agrees_upd with Waiting; [exact Ht|reflexivity|exact Hc].
  - destruct I as [I1 I2 I3 I4 I5 I6 I7].
    assert (NC : forall k t, nth_error (b_tasks s) k = Some t -> critical t = false).
    { intros k t Hk. destruct (critical t) eqn:E; [|reflexivity]. rewrite (I3 k t Hk E) in Hl. discriminate. }
    split; cbn.
    + now rewrite upd_length.
    + intros k t j Hk Hj. destruct (nth_upd_cases _ _ i k _ t Ht Hk) as [[<- ->]|[N Hk']].
      * cbn. exact (I2 i (Measured r) j Ht Hj).
      * apply agrees_upd with (Measured r); [exact Ht|reflexivity|]. now apply I2 with k.
    + intros k t Hk Kt. destruct (nth_upd_cases _ _ i k _ t Ht Hk) as [[<- ->]|[N Hk']]; [reflexivity|]. rewrite (NC k t Hk') in Kt. discriminate.
    + intros k E. injection E as <-. exists (Locked r). split; [now apply nth_upd_same with (Measured r)|reflexivity].
    + rewrite (existsb_upd owner _ _ _ i Ht) by reflexivity. exact I5.
    + intros F k t Hk. destruct (nth_upd_cases _ _ i k _ t Ht Hk) as [[<- ->]|[N Hk']]; [reflexivity|]. now apply I6 with k.
    + destruct I7 as (l & P & E). exists l.
      rewrite (recs_upd_same _ _ jobs i _ Ht) by reflexivity. rewrite (existsb_upd headed _ _ _ i Ht) by reflexivity. now split.
  - pose proof I as [I1 I2 I3 I4 I5 I6 I7]. pose proof (I3 i _ Ht eq_refl) as L.
    assert (NC : forall k t, nth_error (b_tasks s) k = Some t -> i <> k -> critical t = false).
    { intros k t Hk N. destruct (critical t) eqn:E; [|reflexivity]. pose proof (I3 k t Hk E). congruence. }
    split; cbn.
    + now rewrite upd_length.
    + intros k t j Hk Hj. destruct (nth_upd_cases _ _ i k _ t Ht Hk) as [[<- ->]|[N Hk']].
      * exact (I2 i _ j Ht Hj).
      * apply agrees_upd with (Locked r); [exact Ht|reflexivity|]. now apply I2 with k.
    + intros k t Hk Kt. destruct (nth_upd_cases _ _ i k _ t Ht Hk) as [[<- ->]|[N Hk']]; [exact L|]. rewrite (NC k t Hk' N) in Kt. discriminate.
    + intros k E. rewrite L in E. injection E as <-. eexists. split; [now apply nth_upd_same with (Locked r)|reflexivity].
    + rewrite (existsb_upd owner _ _ _ i Ht) by reflexivity. exact I5.
    + congruence.
    + destruct I7 as (l & P & E). exists l. rewrite (recs_upd_same _ _ jobs i _ Ht) by reflexivity. split; [exact P|].
      rewrite (existsb_upd_true headed (Headed r) (Locked r)) by (exact Ht || reflexivity). rewrite Bool.orb_true_r. rewrite Hf in *.
      rewrite (recs_nil (b_tasks s)) in P.
      * apply Permutation_sym, Permutation_nil in P. subst l. rewrite E. rewrite existsb_none; [reflexivity|].
        intros k t Hk. destruct (Nat.eq_dec i k) as [<-|N]; [rewrite Ht in Hk; injection Hk as <-; reflexivity|].
        pose proof (NC k t Hk N) as K. destruct t; try reflexivity. discriminate.
      * apply Forall_forall. intros t Hin. apply In_nth_error in Hin as [k Hk]. pose proof (unset _ _ I Hf k t Hk) as K. destruct t; try reflexivity; discriminate.
  - pose proof I as [I1 I2 I3 I4 I5 I6 I7]. pose proof (I3 i _ Ht eq_refl) as L.
    assert (NC : forall k t, nth_error (b_tasks s) k = Some t -> i <> k -> critical t = false).
    { intros k t Hk N. destruct (critical t) eqn:E; [|reflexivity]. pose proof (I3 k t Hk E). congruence. }
    split; cbn.
    + now rewrite upd_length.
    + intros k t j Hk Hj. destruct (nth_upd_cases _ _ i k _ t Ht Hk) as [[<- ->]|[N Hk']].
      * exact (I2 i _ j Ht Hj).
      * apply agrees_upd with (Headed r); [exact Ht|reflexivity|]. now apply I2 with k.
    + intros k t Hk Kt. destruct (nth_upd_cases _ _ i k _ t Ht Hk) as [[<- ->]|[N Hk']]; [exact L|]. rewrite (NC k t Hk' N) in Kt. discriminate.
    + intros k E. rewrite L in E. injection E as <-. eexists. split; [now apply nth_upd_same with (Headed r)|reflexivity].
    + symmetry. now apply existsb_upd_true with (Headed r).
    + intros _ k t Hk. destruct (nth_upd_cases _ _ i k _ t Ht Hk) as [[<- ->]|[N Hk']]; [reflexivity|].
      pose proof (NC k t Hk' N) as K. destruct t; try reflexivity. discriminate.
    + destruct I7 as (l & P & E). exists l. rewrite (recs_upd_same _ _ jobs i _ Ht) by reflexivity. split; [exact P|]. rewrite E.
      replace (existsb headed (b_tasks s)) with true; [now rewrite Bool.orb_true_r|]. symmetry. apply existsb_exists.
      exists (Headed r). split; [now apply nth_error_In with i|reflexivity].
  - apply binv_quiet with (Locked r); try assumption; try reflexivity; [right; now split|]. intros j E. exact (bi_agree _ _ I i _ j Ht E).
  - pose proof I as [I1 I2 I3 I4 I5 I6 I7]. pose proof (I3 i _ Ht eq_refl) as L.
    assert (F : b_flag s = true). { rewrite I5. apply existsb_exists. exists (Ready r). split; [now apply nth_error_In with i|reflexivity]. }
    assert (Hj : nth_error jobs i = Some (Ok r)).
    { destruct (nth_error jobs i) as [j|] eqn:E; [f_equal; exact (I2 i _ j Ht E)|]. apply nth_error_None in E.
      pose proof (proj1 (nth_error_Some (b_tasks s) i) ltac:(congruence)). lia. }
    split; cbn.
    + now rewrite upd_length.
    + intros k t j Hk Hj'. destruct (nth_upd_cases _ _ i k _ t Ht Hk) as [[<- ->]|[N Hk']].
      * exists r. congruence.
      * apply agrees_upd with (Ready r); [exact Ht|reflexivity|]. now apply I2 with k.
    + intros k t Hk Kt. destruct (nth_upd_cases _ _ i k _ t Ht Hk) as [[<- ->]|[N Hk']]; [exact L|]. now apply I3 with t.
    + intros k E. rewrite L in E. injection E as <-. eexists. split; [now apply nth_upd_same with (Ready r)|reflexivity].
    + rewrite (existsb_upd owner _ _ _ i Ht) by reflexivity. exact I5.
    + intros _ k t Hk. destruct (nth_upd_cases _ _ i k _ t Ht Hk) as [[<- ->]|[N Hk']]; [reflexivity|]. now apply I6 with k.
    + destruct I7 as (l & P & E). exists (l ++ [r]). split.
      * etransitivity; [apply Permutation_app_comm|]. cbn. etransitivity; [apply Permutation_cons; [reflexivity|exact P]|].
        symmetry. now apply recs_upd_write with (Ready r).
      * rewrite E, map_app, <- app_assoc. rewrite F. reflexivity.
  - pose proof I as [I1 I2 I3 I4 I5 I6 I7]. pose proof (I3 i _ Ht eq_refl) as L.
    split; cbn.
    + now rewrite upd_length.
    + intros k t j Hk Hj. destruct (nth_upd_cases _ _ i k _ t Ht Hk) as [[<- ->]|[N Hk']].
      * exact (I2 i _ j Ht Hj).
      * apply agrees_upd with Written; [exact Ht|reflexivity|]. now apply I2 with k.
    + intros k t Hk Kt. destruct (nth_upd_cases _ _ i k _ t Ht Hk) as [[<- ->]|[N Hk']]; [discriminate|].
      pose proof (I3 k t Hk' Kt). congruence.
    + discriminate.
    + rewrite (existsb_upd owner _ _ _ i Ht) by reflexivity. exact I5.
    + intros F k t Hk. destruct (nth_upd_cases _ _ i k _ t Ht Hk) as [[<- ->]|[N Hk']]; [reflexivity|]. now apply I6 with k.
    + destruct I7 as (l & P & E). exists l.
      rewrite (recs_upd_same _ _ jobs i _ Ht) by reflexivity. rewrite (existsb_upd headed _ _ _ i Ht) by reflexivity. now split.
Qed.
Lemma waiting_all (jobs : list (res record)) i t : nth_error (map (fun _ => Waiting) jobs) i = Some t -> t = Waiting.
Proof. intros H. apply nth_error_In, in_map_iff in H as (_ & <- & _). reflexivity. Qed.
Lemma binv_init jobs : binv jobs (b_init jobs).
Proof.
  split; cbn.
  - apply map_length.
  - intros i t j H _. rewrite (waiting_all _ _ _ H). exact Logic.I.
  - intros i t H. rewrite (waiting_all _ _ _ H). discriminate.
  - discriminate.
  - symmetry. apply existsb_none. intros i t H. now rewrite (waiting_all _ _ _ H).
  - discriminate.
  - exists []. rewrite recs_nil, existsb_none; [split; [constructor|reflexivity]| |].
    + intros i t H. now rewrite (waiting_all _ _ _ H).
    + apply Forall_forall. intros t H. apply in_map_iff in H as (_ & <- & _). reflexivity.
Qed.
Lemma binv_steps jobs s s' : bsteps jobs s s' -> binv jobs s -> binv jobs s'.
Proof. induction 1 as [|s s1 s2 H _ IH]; intros I; [exact I|]. apply IH. now apply binv_step with s. Qed.
Lemma reachable_inv jobs s : bsteps jobs (b_init jobs) s -> binv jobs s.
Proof. intros H. eapply binv_steps; [exact H|apply binv_init]. Qed.

(** ** The table *)
Lemma flag_out jobs s : binv jobs s -> exists l rest, Permutation (l ++ rest) (successes jobs)
  /\ ((b_out s = [] /\ l = []) \/ b_out s = Header :: map Row l).
Proof.
  intros I. destruct (bi_out _ _ I) as (l & P & E). destruct (recs_part (b_tasks s) jobs) as [rest Q]. exists l, rest.
  split; [etransitivity; [apply Permutation_app_tail, P|exact Q]|]. destruct (b_flag s || existsb headed (b_tasks s))%bool eqn:B; [right; exact E|left].
  apply Bool.orb_false_iff in B as [F _]. rewrite recs_nil in P.
  - apply Permutation_sym, Permutation_nil in P. subst l. now split.
  - apply Forall_forall. intros t Hin. apply In_nth_error in Hin as [k Hk]. pose proof (unset _ _ I F k t Hk) as K. destruct t; try reflexivity; discriminate.
Qed.
Lemma always jobs s : bsteps jobs (b_init jobs) s -> exists l rest, Permutation (l ++ rest) (successes jobs)
  /\ ((b_out s = [] /\ l = []) \/ b_out s = Header :: map Row l).
Proof. intros H. now apply flag_out, reachable_inv. Qed.

Lemma recs_final : forall ts js, length ts = length js -> Forall ended ts ->
  (forall i t j, nth_error ts i = Some t -> nth_error js i = Some j -> t = Done /\ (exists r, j = Ok r) \/ t = Failed /\ j = Err) ->
  recs ts js = successes js.
Proof.
  induction ts as [|t ts IH]; intros [|j js] Hl He H; try discriminate; [reflexivity|]. injection Hl as Hl. inversion He as [|? ? _ He']; subst.
  pose proof (IH js Hl He' (fun i t j => H (S i) t j)) as E. destruct (H 0%nat t j eq_refl eq_refl) as [[-> [r ->]]|[-> ->]]; cbn; now rewrite E.
Qed.
Lemma ended_job jobs s i t j : binv jobs s -> Forall ended (b_tasks s) -> nth_error (b_tasks s) i = Some t -> nth_error jobs i = Some j ->
  t = Done /\ (exists r, j = Ok r) \/ t = Failed /\ j = Err \/ t = Crashed /\ j = Panic \/ t = Skipped /\ In Crashed (b_tasks s).
Proof.
  intros I F Hi Hj. pose proof (bi_agree _ _ I i t j Hi Hj) as A. pose proof (proj1 (Forall_forall _ _) F t (nth_error_In _ _ Hi)) as E.
  destruct t; cbn in *; try contradiction; auto.
Qed.
Lemma no_panic_no_crash jobs s : binv jobs s -> ~ In Panic jobs -> ~ In Crashed (b_tasks s).
Proof.
  intros I N H. apply In_nth_error in H as [i Hi]. destruct (nth_error jobs i) as [j|] eqn:E.
  - pose proof (bi_agree _ _ I i _ j Hi E) as A. cbn in A. subst j. apply N. now apply nth_error_In with i.
  - apply nth_error_None in E. pose proof (bi_len _ _ I). pose proof (proj1 (nth_error_Some (b_tasks s) i) ltac:(congruence)). lia.
Qed.
Lemma final_table jobs s : bsteps jobs (b_init jobs) s -> Forall ended (b_tasks s) -> ~ In Panic jobs ->
  exists l, Permutation l (successes jobs) /\ finish s = (Ok tt, table l).
Proof.
  intros H F N. pose proof (reachable_inv _ _ H) as I. pose proof (no_panic_no_crash _ _ I N) as NC.
  assert (R : recs (b_tasks s) jobs = successes jobs).
  { apply recs_final; [exact (bi_len _ _ I)|exact F|]. intros i t j Hi Hj. destruct (ended_job _ _ i t j I F Hi Hj) as [A|[A|[[-> _]|[_ A]]]]; auto.
    - exfalso. apply NC. now apply nth_error_In with i.
    - contradiction. }
  destruct (bi_out _ _ I) as (l & P & E). rewrite R in P. exists l. split; [exact P|]. unfold finish. f_equal.
  - change (fun t => match t with Crashed => true | _ => false end) with crashed.
    destruct (existsb crashed (b_tasks s)) eqn:X; [|reflexivity]. apply existsb_exists in X as (t & Ht & X). destruct t; try discriminate. contradiction.
  - rewrite E. rewrite existsb_none, Bool.orb_false_r.
    + destruct (b_flag s) eqn:Fl.
      * destruct l as [|r l]; [|reflexivity]. exfalso. rewrite (bi_owner _ _ I) in Fl. apply existsb_exists in Fl as (t & Ht & O).
        apply In_nth_error in Ht as [i Hi]. pose proof (proj1 (Forall_forall _ _) F t (nth_error_In _ _ Hi)) as En.
        assert (t = Done) by (destruct t; try discriminate; try contradiction; reflexivity). subst t.
        destruct (nth_error jobs i) as [j|] eqn:Hj.
        -- destruct (bi_agree _ _ I i _ j Hi Hj) as [r ->]. apply Permutation_nil in P. clear -Hj P. revert i Hj. induction jobs as [|j jobs IH]; intros [|i] Hj; try discriminate.
           ++ injection Hj as ->. discriminate.
           ++ destruct j as [r'| |]; [discriminate| |]; now apply IH with i.
        -- apply nth_error_None in Hj. pose proof (bi_len _ _ I). pose proof (proj1 (nth_error_Some (b_tasks s) i) ltac:(congruence)). lia.
      * destruct l as [|r l]; [reflexivity|]. exfalso. rewrite <- R in P. rewrite recs_nil in P; [now apply Permutation_sym, Permutation_nil in P|].
        apply Forall_forall. intros t Hin. apply In_nth_error in Hin as [k Hk]. pose proof (unset _ _ I Fl k t Hk) as K. destruct t; try reflexivity; discriminate.
    + intros i t Hi. pose proof (proj1 (Forall_forall _ _) F t (nth_error_In _ _ Hi)) as En. destruct t; try reflexivity; contradiction.
Qed.
Lemma final_panic jobs s : bsteps jobs (b_init jobs) s -> Forall ended (b_tasks s) -> In Panic jobs -> fst (finish s) = Panic.
Proof.
  intros H F N. pose proof (reachable_inv _ _ H) as I. assert (C : In Crashed (b_tasks s)).
  { apply In_nth_error in N as [i Hi]. destruct (nth_error (b_tasks s) i) as [t|] eqn:E.
    - destruct (ended_job _ _ i t _ I F E Hi) as [[_ [r X]]|[[_ X]|[[-> _]|[_ X]]]]; try discriminate; [|exact X]. now apply nth_error_In with i.
    - apply nth_error_None in E. pose proof (bi_len _ _ I). pose proof (proj1 (nth_error_Some jobs i) ltac:(congruence)). lia. }
  unfold finish. cbn. replace (existsb _ _) with true; [reflexivity|]. symmetry. apply existsb_exists. exists Crashed. now split.
Qed.

(** ** Every run ends *)
Definition todo (t : tstate) : nat :=
  match t with Waiting => 6 | Measured _ => 5 | Locked _ => 4 | Headed _ => 3 | Ready _ => 2 | Written => 1 | _ => 0 end.
Definition lefts (ts : list tstate) : nat := fold_right (fun t n => (todo t + n)%nat) 0%nat ts.
Lemma lefts_upd x y : forall ts i, nth_error ts i = Some y -> (todo x < todo y)%nat -> (lefts (upd i x ts) < lefts ts)%nat.
Proof.
  induction ts as [|t ts IH]; intros [|i] H L; try discriminate.
  - injection H as ->. cbn. lia.
  - cbn. pose proof (IH i H L). unfold lefts in *. lia.
Qed.
Lemma step_less jobs s s' : bstep jobs s s' -> (lefts (b_tasks s') < lefts (b_tasks s))%nat.
Proof. intros H. destruct H; cbn; (eapply lefts_upd; [eassumption|cbn; lia]). Qed.
Lemma progress jobs s : bsteps jobs (b_init jobs) s -> ~ Forall ended (b_tasks s) -> exists s', bstep jobs s s'.
Proof.
  intros H N. pose proof (reachable_inv _ _ H) as I.
  assert (C : forall i t, nth_error (b_tasks s) i = Some t -> critical t = true -> exists s', bstep jobs s s').
  { intros i t Hi K. destruct t; try discriminate.
    - destruct (b_flag s) eqn:F; eexists; [eapply step_no_header|eapply step_header]; eassumption.
    - eexists. eapply step_flag; eassumption.
    - eexists. eapply step_write; eassumption.
    - eexists. eapply step_unlock; eassumption. }
  assert (D : exists i t, nth_error (b_tasks s) i = Some t /\ ~ ended t).
  { clear -N. induction (b_tasks s) as [|t ts IH]; [exfalso; apply N; constructor|].
    assert (X : {ended t} + {~ ended t}) by (destruct t; (now left) || (right; intros [])).
    destruct X as [E|E]; [|exists 0%nat, t; now split]. destruct IH as (i & t' & Hi & Ht).
    - intros F. apply N. now constructor.
    - exists (S i), t'. now split. }
  destruct D as (i & t & Hi & Ht). destruct t; try (exfalso; now apply Ht); try (eapply C; [exact Hi|reflexivity]).
  - destruct (nth_error jobs i) as [[r| |]|] eqn:Hj.
    + eexists. eapply step_measure; eassumption.
    + eexists. eapply step_fail; eassumption.
    + eexists. eapply step_panic; eassumption.
    + apply nth_error_None in Hj. pose proof (bi_len _ _ I). pose proof (proj1 (nth_error_Some (b_tasks s) i) ltac:(congruence)). lia.
  - destruct (b_lock s) as [k|] eqn:L; [|eexists; eapply step_lock; eassumption].
    destruct (bi_held _ _ I k L) as (t & Hk & K). eapply C; [exact Hk|exact K].
Qed.
Lemma no_infinite_run jobs (f : nat -> bstate) : ~ (forall n, bstep jobs (f n) (f (S n))).
Proof.
  intros H. assert (B : forall n, (lefts (b_tasks (f n)) + n <= lefts (b_tasks (f 0%nat)))%nat).
  { induction n as [|n IH]; [lia|]. pose proof (step_less _ _ _ (H n)). lia. }
  pose proof (B (S (lefts (b_tasks (f 0%nat))))). lia.
Qed.
