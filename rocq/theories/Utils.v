(** * Model of src/utils.rs:4-16 and of the HashMap operations cniic uses.

    A [HashMap<K, V>] is an association list without duplicate keys; the order of
    the list means nothing: whatever iterates over a map goes through an arbitrary
    permutation given as an argument of the model. *)
From Verif Require Import Base.

Section Map.
  Context {K V : Type} (eqb : K -> K -> bool).

  (** [map.get(k)] *)
  Fixpoint hm_get (k : K) (m : list (K * V)) : option V :=
    match m with
    | [] => None
    | (k', v) :: m => if eqb k k' then Some v else hm_get k m
    end.
  (** [map.insert(k, v)]: replaces the value of an existing key *)
  Fixpoint hm_insert (k : K) (v : V) (m : list (K * V)) : list (K * V) :=
    match m with
    | [] => [(k, v)]
    | (k', v') :: m => if eqb k k' then (k', v) :: m else (k', v') :: hm_insert k v m
    end.
  (** [map.entry(k).and_modify(f).or_insert(v)] *)
  Fixpoint hm_upsert (k : K) (f : V -> V) (v : V) (m : list (K * V)) : list (K * V) :=
    match m with
    | [] => [(k, v)]
    | (k', v') :: m => if eqb k k' then (k', f v') :: m else (k', v') :: hm_upsert k f v m
    end.
End Map.

(** src/utils.rs:4-16.  The counters are u64; they are bounded by the length of the
    sequence, so they cannot overflow on a machine that holds it. *)
Definition count_freqs {A} (eqb : A -> A -> bool) (items : list A) : list (A * N) :=
  fold_left (fun freqs x => hm_upsert eqb x (fun n => n + 1)%N 1%N freqs) items [].
