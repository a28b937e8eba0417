(** * Cases for what zip-back prints *)
From Coq Require Import String.
From Verif Require Import Base Ser SerSpec Dict DictSpec DictProofs Prs Back BackSpec BackProofs BackDec BackLong Says BackSays BackSaysSpec BackSaysTop.
From Coq Require Import ZifyBool ZifyNat ZifyN.
Close Scope string_scope.
Open Scope list_scope.

Definition says_input : list N := [1; 2; 3; 4; 5; 6; 7; 8; 1; 2; 3; 4; 5; 6; 7; 8; 9; 1; 2; 3; 4; 5; 6; 7; 8; 1; 2; 3; 4; 5; 6; 7; 8]%N.
Definition says_caps (i : nat) : nat := if (i <? 5)%nat then 8%nat else 16%nat.
Lemma says_case : delivers list_next says_input says_input /\ caps_ok says_caps /\
  (let '(o, (r, w)) := zip_back_says list_next Debug says_caps 40 says_input vec_writer in
   r = Ok tt
   /\ o = [Searched 0; Searched 0; Searched 0; Searched 1; Extra 8 16; Searched 1; Lit 8; Rep 8; Searched 0; Searched 2; Extra 15 16; Lit 2; Rep 15]%N
   /\ concat (map mark_text o) = txt "?0 ?0 ?0 ?1 Buffered extra data from 8 to 16" ++ [10%N] ++ txt "?1 " ++ [10%N] ++ txt "-8 +8 ?0 ?2 Buffered extra data from 15 to 16"
        ++ [10; 10]%N ++ txt "-2 +15 ")
  /\ fst (zip_back_says list_next Debug says_caps 40 says_input (short_writer 13)) =
     [Searched 0; Searched 0; Searched 0; Searched 1; Extra 8 16; Searched 1; Lit 8; Rep 8]%N.
Proof.
  split; [apply list_delivers|]. split; [intros i; unfold says_caps; destruct (i <? 5)%nat; lia|].
  split; [|vm_compute; reflexivity].
  set (x := zip_back_says _ _ _ _ _ _). vm_compute in x. subst x. cbv beta iota. split; [reflexivity|]. split; [reflexivity|]. vm_compute. reflexivity.
Qed.
Lemma says_abort_case : exists l o1 m n, delivers list_next l l /\ run_vec (zip_back_encode list_next Debug says_caps (S (length l)) l) = Panic
  /\ fst (zip_back_says list_next Debug says_caps (S (length l)) l vec_writer) = o1 ++ [m] /\ announced m = [n] /\ (32767 < n)%N.
Proof.
  destruct back_abort_witness as (l & _ & _ & H).
  assert (HC : caps_ok says_caps) by (intros i; unfold says_caps; destruct (i <? 5)%nat; lia).
  assert (HF : (length l < S (length l))%nat) by lia.
  assert (EP : run_vec (zip_back_encode list_next Debug says_caps (S (length l)) l) = Panic).
  { apply H; [apply list_delivers|exact HC|exact HF]. }
  pose proof (back_says_vec _ list_next l l Debug says_caps (S (length l)) (list_delivers l) HC HF) as D.
  cbv zeta in D. rewrite EP in D. destruct D as (o1 & m & n & E & Em & Hn & _). exists l, o1, m, n.
  split; [apply list_delivers|]. split; [exact EP|]. split; [exact E|]. split; [exact Em|exact Hn].
Qed.
