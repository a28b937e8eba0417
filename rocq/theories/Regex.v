(** * Model of the parts of the regex crate used by src/prs.rs and src/codec/clusterc.rs,
    and of the string functions of std used next to it.

    Only the constructs that occur in the patterns of /repo are covered; the patterns
    are written down as syntax trees (the parser of the regex crate is not modelled). *)
From Verif Require Import Base Prs.

(** The regular expressions that occur *)
Inductive re :=
| Eps
| Cls (f : N -> bool)                 (* one character of a class *)
| Seq (a b : re)
| Opt (a : re)                        (* a?, greedy *)
| Plus (f : N -> bool)                (* f+, greedy *)
| Grp (a : re)                        (* a capture group *)
| Bos                                 (* ^ *)
| Eos.                                (* $ *)
Definition Chr (c : N) : re := Cls (N.eqb c).
(** A literal text *)
Fixpoint lit (s : text) : re := match s with [] => Eps | c :: s => Seq (Chr c) (lit s) end.
(** An optional literal text *)
Definition opt_lit (s : text) : re := Opt (lit s).

(** A way to match: how many characters are taken, what is left, the groups in order. *)
Record way := mkWay { wy_taken : text; wy_rest : text; wy_groups : list (option text) }.
(** The number of capture groups *)
Fixpoint groups (r : re) : nat :=
  match r with Seq a b => groups a + groups b | Opt a => groups a | Grp a => Datatypes.S (groups a) | _ => 0 end.
(** One or more characters of a class, longest first *)
Fixpoint plus_ways (f : N -> bool) (s : text) : list way :=
  match s with
  | [] => []
  | c :: s => if f c then map (fun w => mkWay (c :: wy_taken w) (wy_rest w) []) (plus_ways f s) ++ [mkWay [c] s []] else []
  end.
(** All ways to match at the head of [s], in order of preference (the regex crate
    prefers like a backtracking matcher).  [start] tells whether nothing precedes [s]. *)
Fixpoint ways (r : re) (start : bool) (s : text) : list way :=
  match r with
  | Eps => [mkWay [] s []]
  | Cls f => match s with c :: s => if f c then [mkWay [c] s []] else [] | [] => [] end
  | Seq a b => flat_map (fun w1 => map (fun w2 => mkWay (wy_taken w1 ++ wy_taken w2) (wy_rest w2) (wy_groups w1 ++ wy_groups w2))
                                       (ways b (start && match wy_taken w1 with [] => true | _ => false end) (wy_rest w1)))
                        (ways a start s)
  | Opt a => ways a start s ++ [mkWay [] s (repeat None (groups a))]
  | Plus f => plus_ways f s
  | Grp a => map (fun w => mkWay (wy_taken w) (wy_rest w) (Some (wy_taken w) :: wy_groups w)) (ways a start s)
  | Bos => if start then [mkWay [] s []] else []
  | Eos => match s with [] => [mkWay [] [] []] | _ => [] end
  end.
(** [Regex::captures]: the leftmost match, and there the preferred one *)
Fixpoint search (r : re) (start : bool) (s : text) : option way :=
  match ways r start s with
  | w :: _ => Some w
  | [] => match s with [] => None | _ :: s => search r false s end
  end.
(** Group 0 is the whole match. *)
Definition captures (r : re) (s : text) : option (list (option text)) :=
  match search r true s with Some w => Some (Some (wy_taken w) :: wy_groups w) | None => None end.

(** src/prs.rs:8-21; [r] is the pattern without its anchors *)
Definition matches_fully (s : text) (r : re) : option text :=
  match captures (Seq Bos (Seq r Eos)) s with
  | Some m => if (length m =? 1)%nat then match m with m0 :: _ => m0 | [] => None end else None
  | None => None
  end.
(** src/prs.rs:3-6 *)
Definition expect_name (s : text) (r : re) : parsed text :=
  match matches_fully s r with Some m => POk m | None => PErr (WrongName s) end.

(** ** [usize::from_str] (std), on a 64-bit machine *)
Definition ascii_digit (c : N) : bool := (48 <=? c)%N && (c <=? 57)%N.
(** [usize::from_str]: the digits, failing above the maximum *)
Fixpoint parse_digits (acc : N) (s : text) : res N :=
  match s with
  | [] => Ok acc
  | c :: s => if ascii_digit c
              then let acc := (acc * 10 + (c - 48))%N in if (acc <? 2 ^ 64)%N then parse_digits acc s else Err
              else Err
  end.
(** [usize::from_str]: an optional plus sign, at least one digit *)
Definition usize_from_str (s : text) : res N :=
  match s with
  | [] => Err
  | [c] => if ((c =? 43) || (c =? 45))%N then Err else parse_digits 0 [c]
  | c :: s' => if (c =? 43)%N then parse_digits 0 s' else parse_digits 0 s
  end.
(** [str::eq_ignore_ascii_case] *)
Definition to_ascii_lower (c : N) : N := if ((65 <=? c) && (c <=? 90))%N then (c + 32)%N else c.
(** [str::eq_ignore_ascii_case] *)
Definition eq_ignore_ascii_case (a b : text) : bool := text_eqb (map to_ascii_lower a) (map to_ascii_lower b).
(** [str::strip_prefix] *)
Fixpoint strip_prefix (s pre : text) : option text :=
  match pre, s with
  | [], _ => Some s
  | x :: pre, c :: s => if (x =? c)%N then strip_prefix s pre else None
  | _ :: _, [] => None
  end.
