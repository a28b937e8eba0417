(** * Specification vocabulary for what zip-dict prints (C92). *)
From Verif Require Import Base SerSpec Dict DictSpec TrieStats TrieSpec DictSays.

(** More than 64 entries at one place *)
Definition big (k : nat) : nat := if (64 <? k)%nat then 1 else 0.
(** [c]: how many places of a trie with these keys have more than 64 children, and how many more than 64 values *)
Definition crowded (keys : list (list N)) (c : nat) : Prop :=
  exists ps ks, places keys ps /\ distinct keys ks /\ c = list_sum (map (fun p => big (under p ps) + big (under p ks)) ps).
(** The codes that are looked for before a writer of this room is full: four bytes a pair *)
Definition looked_for (room : option nat) (syms : list N) : list N :=
  match room with None => syms | Some k => firstn (2 * S (k / 4)) syms end.
(** whether [n] bytes fit *)
Definition fits (room : option nat) (n : nat) : bool := match room with None => true | Some k => (n <=? k)%nat end.
(** What is printed when these codes go to a writer of this room: a line for each content that is crowded in the
    dictionary then, at least one; the statistics only if everything fits *)
Definition dict_output (room : option nat) (syms : list N) (out : list dict_line) : Prop :=
  exists d c, learnt initial_dict (looked_for room syms) d /\ crowded d c /\ (1 <= c)%nat
  /\ if fits room (2 * length syms) then exists st, figures d st /\ out = repeat Converting c ++ [TrieStats st]
     else out = repeat Converting c.
