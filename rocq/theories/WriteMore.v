(** * Serialization of trees and symbols on writers that fill up (C01, C02, C05). *)
From Verif Require Import Base Ser SerSpec SerProofs Utils Huf HufSpec HufProofs HufTop Back BackSpec BackProofs.

Lemma tree_read t S (next : nextf S N) s tree s' fuel : byte_source next s -> deser_trie (deser t) fuel next s = Some (Ok tree, s') ->
  Forall (wf t) (leaves tree) /\ exists bs, run_vec (ser_trie (ser t) tree) = Ok bs /\ yields next s bs s'.
Proof.
  intros Hb E. destruct (deser_trie_canon (deser_ty_ok t) fuel Hb E) as [HP [bs [F Y]]]. split; [exact HP|]. exists bs. split; [|exact Y].
  apply (emits_run_vec (so_ok (ser_trie_ok (ser_ty_ok t)) tree HP F)).
Qed.
Lemma tree_short t tree bs k : Forall (wf t) (leaves tree) -> trie_format (format t) tree = Some bs ->
  run_vec (ser_trie (ser t) tree) = Ok bs
  /\ fst (ser_trie (ser t) tree (short_writer k)) = (if (length bs <=? k)%nat then Ok tt else Err)
  /\ written (snd (ser_trie (ser t) tree (short_writer k))) = firstn k bs.
Proof.
  intros HP F. pose proof (so_ok (ser_trie_ok (ser_ty_ok t)) tree HP F) as E. split; [exact (emits_run_vec E)|]. exact (emits_short k E).
Qed.
Lemma tree_bad t tree k : Forall (wf t) (leaves tree) -> trie_format (format t) tree = None -> fst (ser_trie (ser t) tree (short_writer k)) = Err.
Proof.
  intros HP F. destruct (so_err (ser_trie_ok (ser_ty_ok t)) tree HP F) as (bs & E). rewrite (proj1 (emits_short k E)). now destruct (_ <=? _)%nat.
Qed.
Lemma symbol_short s k : symbol_ok s ->
  fst (ser_symbol s (short_writer k)) = (if (length (symbol_bytes s) <=? k)%nat then Ok tt else Err)
  /\ written (snd (ser_symbol s (short_writer k))) = firstn k (symbol_bytes s).
Proof. intros H. exact (emits_short k (ser_symbol_ok s H)). Qed.
Lemma symbol_canonical S (next : nextf S N) st s st' : byte_source next st -> deser_symbol S next st = (Ok s, st') ->
  symbol_ok s /\ exists bs, run_vec (ser_symbol s) = Ok bs /\ yields next st bs st'.
Proof.
  intros Hb E. destruct (deser_symbol_cases Hb) as [(s1 & st1 & E1 & K & Y)|[(st1 & E1 & _)|(st1 & E1 & _)]]; rewrite E in E1; [|discriminate E1|discriminate E1].
  injection E1 as <- <-. split; [exact K|]. exists (symbol_bytes s). split; [|exact Y]. exact (emits_run_vec (ser_symbol_ok s K)).
Qed.
Lemma symbol_roundtrip s : symbol_ok s -> exists bs, run_vec (ser_symbol s) = Ok bs /\
  forall S (next : nextf S N) st st', yields next st bs st' -> deser_symbol S next st = (Ok s, st').
Proof. intros K. exists (symbol_bytes s). split; [exact (emits_run_vec (ser_symbol_ok s K))|]. intros. now apply deser_symbol_rt. Qed.
