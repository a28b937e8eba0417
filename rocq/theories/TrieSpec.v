(** * Specification vocabulary for the trie statistics and its destruction (C67). *)
From Verif Require Import Base SerSpec Dict DictSpec TrieStats.

(** how many strings of [l] are [p] and one more byte *)
Definition under (p : list N) (l : list (list N)) : nat :=
  length (filter (fun k => match k with
                           | [] => false
                           | _ => if list_eq_dec N.eq_dec (removelast k) p then true else false
                           end) l).
(** the slots that are allocated for [k] entries *)
Definition room (k : nat) : nat := if (k <=? 64)%nat then k else 256.
(** [ps]: the places of a trie with these keys, one for each proper beginning of a key *)
Definition places (keys ps : list (list N)) : Prop :=
  NoDup ps /\ forall p, In p ps <-> p = [] \/ exists k, In k keys /\ strict_prefix p k.
(** [ks]: the keys, each once *)
Definition distinct (keys ks : list (list N)) : Prop := NoDup ks /\ forall k, In k ks <-> In k keys.
(** What [print_stats] counts in a trie with these keys. *)
Definition figures (keys : list (list N)) (st : stats) : Prop :=
  exists ps ks, places keys ps /\ distinct keys ks /\
  st = mkStats (length ps) (length ps - 1) (list_sum (map (fun p => room (under p ps)) ps))
               (length ks) (list_sum (map (fun p => room (under p ks)) ps)).
(** [d']: the dictionary after the codes [syms] *)
Inductive learnt : dictionary -> list N -> dictionary -> Prop :=
| learnt_end d : learnt d [] d
| learnt_last d c : learnt d [c; 65535%N] d
| learnt_pair d c1 s1 c2 s2 syms d' :
    nth_error d (N.to_nat c1) = Some s1 -> nth_error d (N.to_nat c2) = Some s2 ->
    learnt (grow d (s1 ++ s2)) syms d' -> learnt d (c1 :: c2 :: syms) d'.
