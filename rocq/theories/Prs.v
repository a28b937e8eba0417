(** * Model of src/prs.rs: parsing of codec arguments. *)
From Coq Require Import String Ascii.
From Verif Require Import Base.
Close Scope string_scope.
Open Scope list_scope.

(** ** Text (Rust [str])

    A [str] is the list of its characters (Unicode scalar values).  Byte positions are
    those of its UTF-8 form. *)
Definition text := list N.
(** A literal *)
Definition txt (s : string) : text := map N_of_ascii (list_ascii_of_string s).
Arguments txt s%string.
(** [char::len_utf8] *)
Definition utf8_len (c : N) : N := (if c <? 128 then 1 else if c <? 2048 then 2 else if c <? 65536 then 3 else 4)%N.
(** [str::len]: the number of bytes *)
Fixpoint str_len (s : text) : N := match s with [] => 0 | c :: s => utf8_len c + str_len s end%N.
(** [split_at]: [None] if byte position [n] is beyond the end or inside a character *)
Fixpoint split_bytes (s : text) (n : N) : option (text * text) :=
  if (n =? 0)%N then Some ([], s)
  else match s with
       | [] => None
       | c :: s => if (utf8_len c <=? n)%N
                   then match split_bytes s (n - utf8_len c) with Some (a, b) => Some (c :: a, b) | None => None end
                   else None
       end.
(** [&s[a..b]]: panics if [a > b] or a position is not a character boundary *)
Definition slice (s : text) (a b : N) : res text :=
  if (a <=? b)%N
  then match split_bytes s a with
       | Some (_, r) => match split_bytes r (b - a) with Some (m, _) => Ok m | None => Panic end
       | None => Panic
       end
  else Panic.
(** [==] on [str] *)
Fixpoint text_eqb (a b : text) : bool :=
  match a, b with
  | [], [] => true
  | x :: a, y :: b => (x =? y)%N && text_eqb a b
  | _, _ => false
  end.

(** The characters of lines 36, 70 and 111 *)
Definition LPAREN : N := 40.
Definition RPAREN : N := 41.
Definition COMMA : N := 44.

(** ** fun_call (src/prs.rs:24-157) *)
(** The local variables (lines 25-28) *)
Record call_state := mkCS { fun_name : option text; params : list text; paren_stack : N; last_pos : N }.
(** src/prs.rs:25-28 *)
Definition call_start : call_state := mkCS None [] 0 0.

(** src/prs.rs:36-69: an opening parenthesis *)
Definition on_open (p : profile) (input : text) (st : call_state) (new_pos : N) : res call_state :=
  if (paren_stack st =? 0)%N then
    if (match fun_name st with Some _ => true | None => false end || negb (last_pos st =? 0)%N) then Err
    else res_bind (assert_ (length (params st) =? 0)%nat) (fun _ =>
         if (new_pos =? 0)%N then Err
         else res_bind (slice input 0 new_pos) (fun name => Ok (mkCS (Some name) (params st) 1 (new_pos + 1))))
  else res_bind (ufit p (2 ^ 16) (paren_stack st + 1)) (fun d => Ok (mkCS (fun_name st) (params st) d (last_pos st))).
(** [Option::is_some] *)
Definition is_some {A} (o : option A) : bool := match o with Some _ => true | None => false end.
(** src/prs.rs:70-110: a closing parenthesis *)
Definition on_close (p : profile) (input : text) (st : call_state) (new_pos : N) : res call_state :=
  if (paren_stack st =? 0)%N then Err
  else
    res_bind
      (if (paren_stack st =? 1)%N then
         res_bind (usub p (2 ^ 64) (str_len input) 1) (fun end_pos =>
         if negb (new_pos =? end_pos)%N then Err
         else
           res_bind (assert_ (is_some (fun_name st))) (fun _ =>
           res_bind
             (if (new_pos =? last_pos st)%N
              then if (0 <? length (params st))%nat then Err else Ok (params st)
              else res_bind (slice input (last_pos st) new_pos) (fun a => Ok (params st ++ [a])))
             (fun ps => Ok (mkCS (fun_name st) ps (paren_stack st) (new_pos + 1)))))
       else Ok st)
      (fun st => res_bind (usub p (2 ^ 16) (paren_stack st) 1) (fun d => Ok (mkCS (fun_name st) (params st) d (last_pos st)))).
(** src/prs.rs:111-143: a comma *)
Definition on_comma (input : text) (st : call_state) (new_pos : N) : res call_state :=
  if (paren_stack st =? 0)%N then Err
  else if (paren_stack st =? 1)%N then
    res_bind (assert_ (is_some (fun_name st))) (fun _ =>
    if (last_pos st =? new_pos)%N then Err
    else res_bind (slice input (last_pos st) new_pos) (fun a => Ok (mkCS (fun_name st) (params st ++ [a]) (paren_stack st) (new_pos + 1))))
  else Ok st.
(** src/prs.rs:32-35 (the dispatch): any other character is filtered out *)
Definition on_char (p : profile) (input : text) (st : call_state) (new_pos c : N) : res call_state :=
  if (c =? LPAREN)%N then on_open p input st new_pos
  else if (c =? RPAREN)%N then on_close p input st new_pos
  else if (c =? COMMA)%N then on_comma input st new_pos
  else Ok st.                                                               (* filtered out, lines 32-33 *)
(** src/prs.rs:30-146; [pos] counts characters ([chars().enumerate()]) *)
Fixpoint call_loop (p : profile) (input : text) (rest : text) (pos : N) (st : call_state) : res call_state :=
  match rest with
  | [] => Ok st
  | c :: rest => res_bind (on_char p input st pos c) (call_loop p input rest (pos + 1))
  end.
(** src/prs.rs:24-157 *)
Definition fun_call (p : profile) (input : text) : res (text * list text) :=
  res_bind (call_loop p input input 0 call_start) (fun st =>
  if negb (paren_stack st =? 0)%N then Err
  else match fun_name st with Some n => Ok (n, params st) | None => Err end).

(** ** Errors (src/prs.rs:161-175); the texts of messages are dropped *)
Inductive parse_error :=
| WrongName (found : text)
| WrongNumberOfArguments (expected found : N)
| AllFailed (errors : list (text * parse_error))
| Other.
(** [Result<T, ParseError>], or a panic *)
Inductive parsed (T : Type) := POk (x : T) | PErr (e : parse_error) | PPanic.
Arguments POk {T}. Arguments PErr {T}. Arguments PPanic {T}.

(** ** ParseAlternatives (src/prs.rs:177-226)

    Parsers may have effects: a state [S] is passed along. *)
Section Alternatives.
  Context {S T : Type}.
  (** A parser for one alternative *)
  Definition parser := text -> S -> parsed T * S.
  (** src/prs.rs:161 *)
  Definition failed_alternatives := list (text * parse_error).
  (** src/prs.rs:177-180; the inner sum is [Result<T, FailedAlternatives>] *)
  Record alternatives := mkAlt { al_input : text; al_res : T + failed_alternatives }.
  (** src/prs.rs:183-188 *)
  Definition alt_new (s : text) : alternatives := mkAlt s (inr []).
  (** src/prs.rs:190-220 *)
  Definition then_try (self : alternatives) (name : text) (prs_fun : parser) (s : S) : parsed alternatives * S :=
    match al_res self with
    | inl _ => (POk self, s)
    | inr v =>
        match prs_fun (al_input self) s with
        | (POk x, s) => (POk (mkAlt (al_input self) (inl x)), s)
        | (PErr e, s) => (POk (mkAlt (al_input self) (inr (v ++ [(name, e)]))), s)
        | (PPanic, s) => (PPanic, s)
        end
    end.
  (** src/prs.rs:222-225 *)
  Definition alt_end (self : alternatives) : parsed T :=
    match al_res self with inl x => POk x | inr v => PErr (AllFailed v) end.
  (** A chain [new(s).then_try(..)...end()] *)
  Fixpoint try_chain (self : alternatives) (l : list (text * parser)) (s : S) : parsed T * S :=
    match l with
    | [] => (alt_end self, s)
    | (name, f) :: l => match then_try self name f s with
                        | (POk self, s) => try_chain self l s
                        | (PErr e, s) => (PErr e, s)
                        | (PPanic, s) => (PPanic, s)
                        end
    end.
  (** A chain of [then_try] from [new] *)
  Definition try_all (l : list (text * parser)) (input : text) (s : S) : parsed T * S := try_chain (alt_new input) l s.
End Alternatives.
