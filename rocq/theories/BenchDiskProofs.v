(** * The benchmark's table when writes fail: proofs. *)
From Coq Require Import Permutation.
From Verif Require Import Base Bench BenchSpec BenchPar BenchDisk.

(** ** The records of the tasks in given states *)
Definition pick1 (f : tstate -> bool) (t : tstate) (j : res record) : list record := if f t then match j with Ok r => [r] | _ => [] end else [].
Fixpoint pick (f : tstate -> bool) (ts : list tstate) (js : list (res record)) : list record :=
  match ts, js with
  | t :: ts, j :: js => pick1 f t j ++ pick f ts js
  | _, _ => []
  end.
Definition failed (t : tstate) : bool := match t with Failed => true | _ => false end.
Definition busy (t : tstate) : bool := match t with Written | Done | Failed => false | _ => true end.
Lemma pick_upd_same f x : forall ts js i t, nth_error ts i = Some t -> (forall j, nth_error js i = Some j -> pick1 f x j = pick1 f t j) ->
  pick f (upd i x ts) js = pick f ts js.
Proof.
  induction ts as [|t0 ts IH]; intros [|j js] [|i] t Hi W; try discriminate; try reflexivity.
  - injection Hi as ->. cbn. now rewrite (W j eq_refl).
  - cbn. f_equal. eapply IH; [exact Hi|exact W].
Qed.
Lemma pick_upd_more f x : forall ts js i t r, nth_error ts i = Some t -> nth_error js i = Some (Ok r) -> f t = false -> f x = true ->
  Permutation (pick f (upd i x ts) js) (r :: pick f ts js).
Proof.
  induction ts as [|t0 ts IH]; intros [|j js] [|i] t r Hi Hj W W'; try discriminate.
  - injection Hi as ->. injection Hj as ->. cbn. unfold pick1. rewrite W, W'. apply Permutation_refl.
  - cbn. etransitivity; [apply Permutation_app_head; apply (IH js i t r Hi Hj W W')|]. symmetry. apply Permutation_middle.
Qed.
Lemma pick_none f : forall ts js, (forall i t, nth_error ts i = Some t -> f t = false) -> pick f ts js = [].
Proof.
  induction ts as [|t ts IH]; intros [|j js] H; try reflexivity. cbn. unfold pick1. rewrite (H 0%nat t eq_refl). apply IH.
  intros i u Hu. now apply (H (S i)).
Qed.
Lemma pick_all : forall ts js, length ts = length js -> Permutation (pick wrote ts js ++ pick failed ts js ++ pick busy ts js) (successes js).
Proof.
  induction ts as [|t ts IH]; intros [|j js] L; try discriminate; [constructor|]. injection L as L. specialize (IH js L). cbn.
  destruct j as [r| |].
  - destruct t; cbn; try (now constructor); (etransitivity; [|constructor; exact IH]).
    all: try (rewrite <- Permutation_middle; reflexivity).
    all: rewrite <- (Permutation_middle (pick failed ts js)), <- Permutation_middle; reflexivity.
  - destruct t; exact IH.
  - destruct t; exact IH.
Qed.

(** ** The invariant *)
Definition agrees_d (ts : list tstate) (t : tstate) (j : res record) : Prop :=
  match t with Failed => j <> Panic | _ => agrees ts t j end.
Definition lock_inv (ts : list tstate) (o : option nat) : Prop :=
  (forall i t, nth_error ts i = Some t -> critical t = true -> o = Some i)
  /\ (forall i, o = Some i -> exists t, nth_error ts i = Some t /\ critical t = true).
Definition out_inv (jobs : list (res record)) (ts : list tstate) (f : bool) (out : list row) : Prop :=
  exists l, Permutation l (pick wrote ts jobs) /\
  (f = false /\ (forall i t, nth_error ts i = Some t -> owner t = false /\ headed t = false) /\ l = [] /\ out = []
   \/ f = false /\ (forall i t, nth_error ts i = Some t -> owner t = false) /\ (exists i r, nth_error ts i = Some (Headed r)) /\ l = [] /\ out = [Header]
   \/ f = true /\ (forall i t, nth_error ts i = Some t -> headed t = false) /\ out = Header :: map Row l).
Record dinv (jobs : list (res record)) (s : bstate) (lost : list record) : Prop := {
  di_len : length (b_tasks s) = length jobs;
  di_agree : forall i t j, nth_error (b_tasks s) i = Some t -> nth_error jobs i = Some j -> agrees_d (b_tasks s) t j;
  di_lock : lock_inv (b_tasks s) (b_lock s);
  di_out : out_inv jobs (b_tasks s) (b_flag s) (b_out s);
  di_lost : Permutation lost (pick failed (b_tasks s) jobs) }.

Lemma agree_upd jobs ts i x y : nth_error ts i = Some y -> crashed y = false ->
  (forall k t j, nth_error ts k = Some t -> nth_error jobs k = Some j -> agrees_d ts t j) ->
  (forall j, nth_error jobs i = Some j -> agrees_d (upd i x ts) x j) ->
  forall k t j, nth_error (upd i x ts) k = Some t -> nth_error jobs k = Some j -> agrees_d (upd i x ts) t j.
Proof.
  intros Hy C I A k t j Hk Hj. destruct (nth_upd_cases x _ i k y t Hy Hk) as [[<- ->]|[N Hk']]; [now apply A|].
  pose proof (I k t j Hk' Hj) as B. unfold agrees_d in *. destruct t; try exact B; now apply agrees_upd with y.
Qed.
Lemma lock_same ts o i x y : nth_error ts i = Some y -> critical x = critical y -> lock_inv ts o -> lock_inv (upd i x ts) o.
Proof.
  intros Hy C [A B]. split.
  - intros k t Hk Kt. destruct (nth_upd_cases x _ i k y t Hy Hk) as [[<- ->]|[N Hk']]; [apply A with y; congruence|now apply A with t].
  - intros k Hk. destruct (B k Hk) as (t & Ht & Kt). destruct (Nat.eq_dec i k) as [<-|N].
    + exists x. split; [now apply nth_upd_same with y|]. rewrite Hy in Ht. injection Ht as <-. congruence.
    + exists t. rewrite nth_upd_other by exact N. now split.
Qed.
Lemma lock_take ts i x y : nth_error ts i = Some y -> critical x = true -> lock_inv ts None -> lock_inv (upd i x ts) (Some i).
Proof.
  intros Hy C [A B]. split.
  - intros k t Hk Kt. destruct (nth_upd_cases x _ i k y t Hy Hk) as [[<- ->]|[N Hk']]; [reflexivity|]. discriminate (A k t Hk' Kt).
  - intros k E. injection E as <-. exists x. split; [now apply nth_upd_same with y|exact C].
Qed.
Lemma lock_drop ts o i x y : nth_error ts i = Some y -> critical y = true -> critical x = false -> lock_inv ts o -> lock_inv (upd i x ts) None.
Proof.
  intros Hy C C' [A B]. split; [|discriminate].
  intros k t Hk Kt. destruct (nth_upd_cases x _ i k y t Hy Hk) as [[<- ->]|[N Hk']]; [congruence|].
  pose proof (A k t Hk' Kt). pose proof (A i y Hy C). congruence.
Qed.
Lemma lock_alone ts o i y k t : lock_inv ts o -> nth_error ts i = Some y -> critical y = true -> nth_error ts k = Some t -> i <> k -> critical t = false.
Proof.
  intros [A _] Hy C Hk N. destruct (critical t) eqn:E; [|reflexivity]. pose proof (A k t Hk E). pose proof (A i y Hy C). congruence.
Qed.

(** A step that neither writes nor changes the flag *)
Lemma out_same jobs ts f out i x y : nth_error ts i = Some y -> wrote x = wrote y -> headed y = false -> headed x = false ->
  (owner x = true -> f = true) -> out_inv jobs ts f out -> out_inv jobs (upd i x ts) f out.
Proof.
  intros Hy W Hh Hh' O (l & P & D). exists l. split.
  { rewrite (pick_upd_same wrote x ts jobs i y Hy); [exact P|]. intros j _. unfold pick1. now rewrite W. }
  destruct D as [(F & D & L & E)|[(F & D & (k & r & Hk) & L & E)|(F & D & E)]].
  - left. repeat split; try assumption; destruct (nth_upd_cases x _ i i0 y t Hy H) as [[<- ->]|[N Hk']]; try (now apply (D i0)); try assumption.
    destruct (owner x); [|reflexivity]. rewrite O in F by reflexivity. discriminate.
  - right. left. repeat split; try assumption.
    + intros i0 t H. destruct (nth_upd_cases x _ i i0 y t Hy H) as [[<- ->]|[N Hk']]; [|now apply (D i0)].
      destruct (owner x); [|reflexivity]. rewrite O in F by reflexivity. discriminate.
    + exists k, r. rewrite nth_upd_other; [exact Hk|]. intros ->. rewrite Hy in Hk. injection Hk as ->. discriminate.
  - right. right. repeat split; try assumption. intros i0 t H. destruct (nth_upd_cases x _ i i0 y t Hy H) as [[<- ->]|[N Hk']]; [assumption|now apply (D i0)].
Qed.
Lemma flag_set jobs s lost i r : dinv jobs s lost -> nth_error (b_tasks s) i = Some (Ready r) -> b_flag s = true.
Proof.
  intros I H. destruct (di_out _ _ _ I) as (l & _ & [(_ & D & _)|[(_ & D & _)|(F & _)]]); [| |exact F].
  - destruct (D i _ H) as [X _]. discriminate.
  - discriminate (D i _ H).
Qed.
Lemma job_of jobs s lost i t r : dinv jobs s lost -> nth_error (b_tasks s) i = Some t -> (forall j, agrees_d (b_tasks s) t j -> j = Ok r) ->
  nth_error jobs i = Some (Ok r).
Proof.
  intros I H A. destruct (nth_error jobs i) as [j|] eqn:E; [f_equal; exact (A j (di_agree _ _ _ I i t j H E))|]. apply nth_error_None in E.
  pose proof (di_len _ _ _ I). pose proof (proj1 (nth_error_Some (b_tasks s) i) ltac:(congruence)). lia.
Qed.
Lemma lost_same jobs ts lost i x y : nth_error ts i = Some y -> failed y = false -> (failed x = true -> forall j, nth_error jobs i = Some j -> j = Err) ->
  Permutation lost (pick failed ts jobs) -> Permutation lost (pick failed (upd i x ts) jobs).
Proof.
  intros Hy Fy Fx P. rewrite (pick_upd_same failed x ts jobs i y Hy); [exact P|]. intros j Hj. unfold pick1. rewrite Fy.
  destruct (failed x) eqn:E; [|reflexivity]. now rewrite (Fx eq_refl j Hj).
Qed.

Lemma dinv_bstep jobs s s' lost : dinv jobs s lost -> bstep jobs s s' -> dinv jobs s' lost.
Proof.
  intros I H. pose proof I as [I1 I2 I3 I4 I5].
  destruct H as [i r s Ht Hj|i s Ht Hj|i s Ht Hj|i s Ht Hc|i r s Ht Hl|i r s Ht Hf|i r s Ht|i r s Ht Hf|i r s Ht|i s Ht].
  - split; cbn.
    + now rewrite upd_length.
    + apply agree_upd with Waiting; try assumption; [reflexivity|]. intros j E. cbn. congruence.
    + now apply lock_same with Waiting.
    + apply out_same with Waiting; try assumption; try reflexivity. discriminate.
    + apply lost_same with Waiting; try assumption; [reflexivity|discriminate].
  - split; cbn.
    + now rewrite upd_length.
    + apply agree_upd with Waiting; try assumption; [reflexivity|]. intros j E. cbn. congruence.
    + now apply lock_same with Waiting.
    + apply out_same with Waiting; try assumption; try reflexivity. discriminate.
    + apply lost_same with Waiting; try assumption; [reflexivity|]. intros _ j E. congruence.
  - split; cbn.
    + now rewrite upd_length.
    + apply agree_upd with Waiting; try assumption; [reflexivity|]. intros j E. cbn. congruence.
    + now apply lock_same with Waiting.
    + apply out_same with Waiting; try assumption; try reflexivity. discriminate.
    + apply lost_same with Waiting; try assumption; [reflexivity|discriminate].
  - split; cbn.
    + now rewrite upd_length.
    + apply agree_upd with Waiting; try assumption; [reflexivity|]. intros j E. exact (agrees_upd _ i Skipped Waiting Skipped j Ht eq_refl Hc).
    + now apply lock_same with Waiting.
    + apply out_same with Waiting; try assumption; try reflexivity. discriminate.
    + apply lost_same with Waiting; try assumption; [reflexivity|discriminate].
  - split; cbn.
    + now rewrite upd_length.
    + apply agree_upd with (Measured r); try assumption; [reflexivity|]. intros j E. exact (I2 i _ j Ht E).
    + apply lock_take with (Measured r); [exact Ht|reflexivity|]. now rewrite <- Hl.
    + apply out_same with (Measured r); try assumption; try reflexivity. discriminate.
    + apply lost_same with (Measured r); try assumption; [reflexivity|discriminate].
  - split; cbn.
    + now rewrite upd_length.
    + apply agree_upd with (Locked r); try assumption; [reflexivity|]. intros j E. exact (I2 i _ j Ht E).
    + now apply lock_same with (Locked r).
    + destruct I4 as (l & P & D). exists l. split; [rewrite (pick_upd_same wrote _ _ jobs i _ Ht); [exact P|reflexivity]|].
      destruct D as [(F & D & L & E)|[(F & D & (k & r' & Hk) & L & E)|(F & D & E)]]; [| |congruence].
      * right. left. repeat split; try assumption.
        -- intros k t Hk. destruct (nth_upd_cases _ _ i k _ t Ht Hk) as [[<- ->]|[N Hk']]; [reflexivity|now apply (D k)].
        -- exists i, r. now apply nth_upd_same with (Locked r).
        -- now rewrite E.
      * exfalso. assert (N : i <> k) by congruence. discriminate (lock_alone _ _ i _ k _ I3 Ht eq_refl Hk N).
    + apply lost_same with (Locked r); try assumption; [reflexivity|discriminate].
  - split; cbn.
    + now rewrite upd_length.
    + apply agree_upd with (Headed r); try assumption; [reflexivity|]. intros j E. exact (I2 i _ j Ht E).
    + now apply lock_same with (Headed r).
    + destruct I4 as (l & P & D). exists l. split; [rewrite (pick_upd_same wrote _ _ jobs i _ Ht); [exact P|reflexivity]|].
      right. right. split; [reflexivity|]. split.
      * intros k t Hk. destruct (nth_upd_cases _ _ i k _ t Ht Hk) as [[<- ->]|[N Hk']]; [reflexivity|].
        pose proof (lock_alone _ _ i _ k t I3 Ht eq_refl Hk' N) as C. destruct t; try reflexivity. discriminate.
      * destruct D as [(F & D & L & E)|[(F & D & _ & L & E)|(F & D & E)]].
        -- destruct (D i _ Ht) as [_ X]. discriminate.
        -- now rewrite E, L.
        -- discriminate (D i _ Ht).
    + apply lost_same with (Headed r); try assumption; [reflexivity|discriminate].
  - split; cbn.
    + now rewrite upd_length.
    + apply agree_upd with (Locked r); try assumption; [reflexivity|]. intros j E. exact (I2 i _ j Ht E).
    + now apply lock_same with (Locked r).
    + apply out_same with (Locked r); try assumption; try reflexivity. now intros _.
    + apply lost_same with (Locked r); try assumption; [reflexivity|discriminate].
  - pose proof (flag_set _ _ _ _ _ I Ht) as F. assert (Hj : nth_error jobs i = Some (Ok r)) by (apply (job_of _ _ _ i (Ready r) r I Ht); now intros j).
    split; cbn.
    + now rewrite upd_length.
    + apply agree_upd with (Ready r); try assumption; [reflexivity|]. intros j E. exists r. congruence.
    + now apply lock_same with (Ready r).
    + destruct I4 as (l & P & D). destruct D as [(F' & _)|[(F' & _)|(_ & D & E)]]; try congruence. exists (l ++ [r]). split.
      * etransitivity; [apply Permutation_app_comm|]. cbn. etransitivity; [apply Permutation_cons; [reflexivity|exact P]|].
        symmetry. now apply pick_upd_more with (Ready r).
      * right. right. split; [exact F|]. split; [|now rewrite E, map_app].
        intros k t Hk. destruct (nth_upd_cases _ _ i k _ t Ht Hk) as [[<- ->]|[N Hk']]; [reflexivity|now apply (D k)].
    + apply lost_same with (Ready r); try assumption; [reflexivity|discriminate].
  - split; cbn.
    + now rewrite upd_length.
    + apply agree_upd with Written; try assumption; [reflexivity|]. intros j E. exact (I2 i _ j Ht E).
    + now apply lock_drop with (b_lock s) Written.
    + apply out_same with Written; try assumption; try reflexivity. intros _.
      destruct I4 as (l & _ & [(_ & D & _)|[(_ & D & _)|(F & _)]]); [| |exact F].
      * destruct (D i _ Ht) as [X _]. discriminate.
      * discriminate (D i _ Ht).
    + apply lost_same with Written; try assumption; [reflexivity|discriminate].
Qed.
Lemma dinv_lose jobs s lost i t r : dinv jobs s lost -> nth_error (b_tasks s) i = Some t -> t = Locked r \/ t = Ready r ->
  dinv jobs (set_lock None (set_task i Failed s)) (r :: lost).
Proof.
  intros I Ht T. pose proof I as [I1 I2 I3 I4 I5].
  assert (Hj : nth_error jobs i = Some (Ok r)) by (apply (job_of _ _ _ i t r I Ht); intros j; destruct T as [-> | ->]; exact (fun H => H)).
  split; cbn.
  - now rewrite upd_length.
  - apply agree_upd with t; try assumption; [now destruct T as [-> | ->]|]. intros j E. cbn. congruence.
  - apply lock_drop with (b_lock s) t; try assumption; [now destruct T as [-> | ->]|reflexivity].
  - apply out_same with t; try assumption; try reflexivity; try (now destruct T as [-> | ->]).
  - etransitivity; [apply Permutation_cons; [reflexivity|exact I5]|]. symmetry. apply pick_upd_more with t; try assumption; [now destruct T as [-> | ->]|reflexivity].
Qed.
Lemma dinv_step jobs s s' : dinv jobs (d_bench s) (d_lost s) -> dstep jobs s s' -> dinv jobs (d_bench s') (d_lost s').
Proof.
  intros I H. destruct H as [s s' l H|i r s l Ht Hf|i r s l Ht]; cbn in *.
  - now apply dinv_bstep with s.
  - apply dinv_lose with (Locked r); auto.
  - apply dinv_lose with (Ready r); auto.
Qed.
Lemma dinv_init jobs : dinv jobs (b_init jobs) [].
Proof.
  assert (W : forall i t, nth_error (map (fun _ => Waiting) jobs) i = Some t -> t = Waiting) by (intros i t; apply waiting_all).
  split; cbn.
  - apply map_length.
  - intros i t j H _. rewrite (W _ _ H). exact Logic.I.
  - split; [|discriminate]. intros i t H. rewrite (W _ _ H). discriminate.
  - exists []. split.
    + rewrite pick_none; [constructor|]. intros i t H. now rewrite (W _ _ H).
    + left. repeat split; now rewrite (W _ _ H).
  - rewrite pick_none; [constructor|]. intros i t H. now rewrite (W _ _ H).
Qed.
Lemma d_reachable jobs s : dsteps jobs (d_init jobs) s -> dinv jobs (d_bench s) (d_lost s).
Proof.
  enough (G : forall s s', dsteps jobs s s' -> dinv jobs (d_bench s) (d_lost s) -> dinv jobs (d_bench s') (d_lost s')).
  { intros H. exact (G _ _ H (dinv_init jobs)). }
  induction 1 as [|s0 s1 s2 H _ IH]; intros I; [exact I|]. apply IH. now apply dinv_step with s0.
Qed.

(** ** What was written *)
Lemma d_always jobs s : dsteps jobs (d_init jobs) s -> exists l rest, Permutation (l ++ d_lost s ++ rest) (successes jobs)
  /\ ((b_out (d_bench s) = [] /\ l = []) \/ b_out (d_bench s) = Header :: map Row l).
Proof.
  intros H. pose proof (d_reachable _ _ H) as I. destruct (di_out _ _ _ I) as (l & P & D). exists l, (pick busy (b_tasks (d_bench s)) jobs). split.
  - etransitivity; [|apply pick_all; exact (di_len _ _ _ I)]. apply Permutation_app; [exact P|]. apply Permutation_app_tail. exact (di_lost _ _ _ I).
  - destruct D as [(_ & _ & L & E)|[(_ & _ & _ & L & E)|(_ & _ & E)]].
    + left. now split.
    + right. now rewrite E, L.
    + now right.
Qed.
Lemma d_crash jobs s : dinv jobs (d_bench s) (d_lost s) -> Forall ended (b_tasks (d_bench s)) ->
  (existsb crashed (b_tasks (d_bench s)) = true <-> In Panic jobs).
Proof.
  intros I F. split.
  - intros X. apply existsb_exists in X as (t & Ht & X). destruct t; try discriminate. apply In_nth_error in Ht as [i Hi].
    destruct (nth_error jobs i) as [j|] eqn:E.
    + pose proof (di_agree _ _ _ I i _ j Hi E) as A. cbn in A. subst j. now apply nth_error_In with i.
    + apply nth_error_None in E. pose proof (di_len _ _ _ I). pose proof (proj1 (nth_error_Some (b_tasks (d_bench s)) i) ltac:(congruence)). lia.
  - intros X. apply In_nth_error in X as [i Hi]. destruct (nth_error (b_tasks (d_bench s)) i) as [t|] eqn:E.
    + pose proof (di_agree _ _ _ I i t _ E Hi) as A. pose proof (proj1 (Forall_forall _ _) F t (nth_error_In _ _ E)) as En.
      destruct t; cbn in A, En; try contradiction; try (now destruct A).
      * apply existsb_exists. exists Crashed. split; [now apply nth_error_In with i|reflexivity].
      * apply existsb_exists. exists Crashed. split; [exact A|reflexivity].
    + apply nth_error_None in E. pose proof (di_len _ _ _ I). pose proof (proj1 (nth_error_Some jobs i) ltac:(congruence)). lia.
Qed.
Lemma d_final jobs creates flushes r out lost : table_run jobs creates flushes r out lost ->
  (r = Ok tt <-> creates = true /\ flushes = true /\ ~ In Panic jobs) /\ r <> Err
  /\ (creates = false -> out = [] /\ lost = [])
  /\ (creates = true -> ~ In Panic jobs -> exists l, Permutation (l ++ lost) (successes jobs)
       /\ (out = Header :: map Row l \/ out = [] /\ l = [])).
Proof.
  intros H. destruct H as [flushes|flushes s H F].
  - split; [split; [discriminate|now intros (X & _)]|]. split; [discriminate|]. split; [now split|discriminate].
  - pose proof (d_reachable _ _ H) as I. pose proof (d_crash _ _ I F) as C. unfold d_finish.
    change (fun t => match t with Crashed => true | _ => false end) with crashed.
    split; [|split; [|split; [discriminate|]]].
    + destruct (existsb crashed _); [|destruct flushes]; cbn; split; try discriminate.
      * intros (_ & _ & N). exfalso. now apply N, C.
      * intros _. split; [reflexivity|]. split; [reflexivity|]. intros X. apply C in X. discriminate.
      * reflexivity.
      * now intros (_ & X & _).
    + destruct (existsb crashed _); [|destruct flushes]; discriminate.
    + intros _ N. destruct (di_out _ _ _ I) as (l & P & D). exists l. split.
      * etransitivity; [|apply pick_all; exact (di_len _ _ _ I)]. apply Permutation_app; [exact P|].
        rewrite (di_lost _ _ _ I). enough (E : pick busy (b_tasks (d_bench s)) jobs = []) by (rewrite E, app_nil_r; reflexivity).
        apply pick_none. intros i t Hi. pose proof (proj1 (Forall_forall _ _) F t (nth_error_In _ _ Hi)) as En.
        assert (NC : ~ In Crashed (b_tasks (d_bench s))).
        { intros X. apply N. apply C. apply existsb_exists. now exists Crashed. }
        destruct (nth_error jobs i) as [j|] eqn:E.
        -- pose proof (di_agree _ _ _ I i t j Hi E) as A. destruct t; cbn in A, En |- *; try contradiction; try reflexivity.
           subst j. exfalso. apply N. now apply nth_error_In with i.
        -- apply nth_error_None in E. pose proof (di_len _ _ _ I). pose proof (proj1 (nth_error_Some (b_tasks (d_bench s)) i) ltac:(congruence)). lia.
      * destruct D as [(_ & _ & L & E)|[(_ & _ & _ & L & E)|(_ & _ & E)]]; [right; now split|left; now rewrite E, L|now left].
Qed.

(** ** Failures are reported *)
Lemma steps_of_fine jobs s s' : dsteps jobs s s' -> d_lost s' = d_lost s -> bsteps jobs (d_bench s) (d_bench s').
Proof.
  assert (G : forall s s', dsteps jobs s s' -> exists m, d_lost s' = m ++ d_lost s).
  { induction 1 as [s0|s0 s1 s2 H _ [m IH]]; [now exists []|]. destruct H as [a b l H|i r a l _ _|i r a l _]; cbn in *;
      [now exists m|exists (m ++ [r])|exists (m ++ [r])]; now rewrite IH, <- app_assoc. }
  induction 1 as [s0|s0 s1 s2 H H' IH]; intros E; [constructor|].
  destruct (G _ _ H') as [m Hm]. destruct H as [a b l H|i r a l _ _|i r a l _]; cbn in *.
  - econstructor; [exact H|]. now apply IH.
  - exfalso. rewrite Hm in E. apply (f_equal (@length _)) in E. rewrite app_length in E. cbn in E. lia.
  - exfalso. rewrite Hm in E. apply (f_equal (@length _)) in E. rewrite app_length in E. cbn in E. lia.
Qed.
Lemma d_no_failure jobs flushes r out : table_run jobs true flushes r out [] -> ~ In Panic jobs ->
  exists l, Permutation l (successes jobs) /\ out = table l.
Proof.
  intros H N. remember true as c eqn:Ec. remember [] as lost eqn:El. destruct H as [flushes|flushes s H F]; [discriminate|].
  pose proof (steps_of_fine _ _ _ H El) as H'. destruct (final_table _ _ H' F N) as (l & P & E). exists l. split; [exact P|].
  unfold finish in E. now injection E as _ ->.
Qed.

(** ** Every run ends *)
Lemma dstep_less jobs s s' : dstep jobs s s' -> (lefts (b_tasks (d_bench s')) < lefts (b_tasks (d_bench s)))%nat.
Proof.
  intros H. destruct H as [a b l H|i r a l H _|i r a l H]; cbn; [now apply step_less with jobs| |]; (eapply lefts_upd; [exact H|cbn; lia]).
Qed.
Lemma d_no_infinite jobs (f : nat -> dstate) : ~ (forall n, dstep jobs (f n) (f (S n))).
Proof.
  intros H. assert (B : forall n, (lefts (b_tasks (d_bench (f n))) + n <= lefts (b_tasks (d_bench (f 0%nat))))%nat).
  { induction n as [|n IH]; [lia|]. pose proof (dstep_less _ _ _ (H n)). lia. }
  pose proof (B (S (lefts (b_tasks (d_bench (f 0%nat)))))). lia.
Qed.
Lemma d_progress jobs s : dsteps jobs (d_init jobs) s -> ~ Forall ended (b_tasks (d_bench s)) -> exists s', bstep jobs (d_bench s) s'.
Proof.
  intros H N. pose proof (d_reachable _ _ H) as I. destruct s as [s lost]. cbn in *.
  assert (C : forall i t, nth_error (b_tasks s) i = Some t -> critical t = true -> exists s', bstep jobs s s').
  { intros i t Hi K. destruct t; try discriminate.
    - destruct (b_flag s) eqn:F; eexists; [eapply step_no_header|eapply step_header]; eassumption.
    - eexists. eapply step_flag; eassumption.
    - eexists. eapply step_write; eassumption.
    - eexists. eapply step_unlock; eassumption. }
  assert (D : exists i t, nth_error (b_tasks s) i = Some t /\ ~ ended t).
  { clear -N. induction (b_tasks s) as [|t ts IH]; [exfalso; apply N; constructor|].
    assert (X : {ended t} + {~ ended t}) by (destruct t; (now left) || (right; intros [])).
    destruct X as [E|E]; [|exists 0%nat, t; now split]. destruct IH as (i & t' & Hi & Ht).
    - intros F. apply N. now constructor.
    - exists (S i), t'. now split. }
  destruct D as (i & t & Hi & Ht). destruct t; try (exfalso; now apply Ht); try (eapply C; [exact Hi|reflexivity]).
  - destruct (nth_error jobs i) as [[r| |]|] eqn:Hj.
    + eexists. eapply step_measure; eassumption.
    + eexists. eapply step_fail; eassumption.
    + eexists. eapply step_panic; eassumption.
    + apply nth_error_None in Hj. pose proof (di_len _ _ _ I). pose proof (proj1 (nth_error_Some (b_tasks s) i) ltac:(congruence)). lia.
  - destruct (b_lock s) as [k|] eqn:L; [|eexists; eapply step_lock; eassumption].
    destruct (di_lock _ _ _ I) as [_ B]. destruct (B k L) as (t & Hk & K). eapply C; [exact Hk|exact K].
Qed.
