(** * Specification vocabulary for C72: the texts a pattern stands for. *)
From Verif Require Import Base Prs Regex.

(** The texts of a pattern *)
Inductive lang : re -> text -> Prop :=
| lang_eps : lang Eps []
| lang_cls f c : f c = true -> lang (Cls f) [c]
| lang_seq a b s t : lang a s -> lang b t -> lang (Seq a b) (s ++ t)
| lang_none a : lang (Opt a) []
| lang_some a s : lang a s -> lang (Opt a) s
| lang_plus f s : s <> [] -> Forall (fun c => f c = true) s -> lang (Plus f) s
| lang_grp a s : lang a s -> lang (Grp a) s.
(** No anchors inside *)
Fixpoint plain (r : re) : bool :=
  match r with Bos | Eos => false | Seq a b => plain a && plain b | Opt a | Grp a => plain a | _ => true end.
