(** * Model of what zip-back prints (src/zip/back.rs: all [print!] and [println!]).

    The encoder of Back.v once more, with its output in order.  That printing does not
    change the computation is a theorem (C90).  The decoder prints nothing.  Not
    modelled: a standard output that cannot be written to. *)
From Coq Require Import String.
From Verif Require Import Base Ser Prs Special Back Says.
Close Scope string_scope.
Open Scope list_scope.

(** What is printed, with the numbers in it *)
Inductive mark :=
| Lit (n : N)               (* src/zip/back.rs:67 *)
| Rep (n : N)               (* src/zip/back.rs:78 *)
| Extra (from upto : N)     (* src/zip/back.rs:236 *)
| Searched (n : N).         (* src/zip/back.rs:312 *)
(** The texts; only [Extra] ends its line *)
Definition mark_text (m : mark) : text :=
  match m with
  | Lit n => [10%N] ++ txt "-" ++ decimal n ++ txt " "
  | Rep n => txt "+" ++ decimal n ++ txt " "
  | Extra a b => txt "Buffered extra data from " ++ decimal a ++ txt " to " ++ decimal b ++ [10%N]
  | Searched n => txt "?" ++ decimal n ++ txt " "
  end.

(** src/zip/back.rs:64-88: the line comes before the assertion on the length *)
Definition ser_symbol_says (s : symbol) : says mark writer unit :=
  says_bind (utter match s with
                   | Explicit data => Lit (N.of_nat (length data))
                   | LookBack len _ => Rep len
                   end) (fun _ => hush (ser_symbol s)).

Section Encoder.
  (** As in Back.v; [caps i] is also the capacity after the call of [more_data] before the
      [i]-th, since [clear] keeps it *)
  Context {S : Type} (next : nextf S N) (R : N) (pr : profile) (caps : nat -> nat).

  (** src/zip/back.rs:253-277, 307-312 *)
  Definition buffered_says : says mark (benc S) (option (N * N)) :=
    says_bind (hush (get (fun e => length (be_rep e)))) (fun n =>
    if (n <? MIN_REP)%nat then hush (rd_ret None)
    else says_bind (hush (get (fun e => length (start_indices_for (ih_index (be_history e)) (firstn MIN_REP (be_rep e)) (ih_data (be_history e))))))
           (fun valid_entries =>
         says_bind (utter (Searched (N.of_nat valid_entries))) (fun _ =>
         says_bind (hush (get (buffered_repetition R pr))) (fun r => hush (rd_lift r))))).
  (** src/zip/back.rs:226-250 *)
  Fixpoint repetition_says (fuel : nat) : says mark (benc S) (option (N * N)) :=
    match fuel with
    | O => hush rd_panic
    | Datatypes.S fuel =>
        says_bind buffered_says (fun lb =>
        match lb with
        | Some (len, back) =>
            says_bind (hush (get (fun e => length (be_rep e)))) (fun prev_len =>
            if (len =? N.of_nat prev_len)%N then
              says_bind (hush (more_data next caps)) (fun _ =>
              says_bind (hush (get (fun e => caps (be_calls e)))) (fun capacity =>
              says_bind (utter (Extra (N.of_nat prev_len) (N.of_nat capacity))) (fun _ =>
              says_bind (hush (get (fun e => length (be_rep e)))) (fun new_len =>
              if (new_len =? prev_len)%nat then hush (rd_ret lb) else repetition_says fuel))))
            else hush (rd_ret lb))
        | None => hush (rd_ret None)
        end)
    end.
  (** src/zip/back.rs:214-251 *)
  Definition next_repetition_says (fuel : nat) : says mark (benc S) (option (N * N)) :=
    says_bind (hush clear_rep) (fun _ => says_bind (hush (more_data next caps)) (fun _ => repetition_says fuel)).
  (** src/zip/back.rs:188-211 *)
  Fixpoint symbols_says (fuel : nat) (curr_explicit : list N) : says mark (benc S) (list symbol) :=
    match fuel with
    | O => hush rd_panic
    | Datatypes.S fuel' =>
        says_bind (next_repetition_says fuel) (fun rep =>
        let other :=
          says_bind (hush (extend_explicit next R curr_explicit)) (fun '(curr_explicit, must_return) =>
          if must_return : bool then hush (rd_ret (push_explicit curr_explicit)) else symbols_says fuel' curr_explicit) in
        match rep with
        | Some (len, back) =>
            if (N.of_nat MIN_REP <=? len)%N then
              says_bind (hush (commit_bytes next R (N.to_nat len))) (fun _ =>
              hush (rd_ret (push_explicit curr_explicit ++ [LookBack len back])))
            else other
        | None => other
        end)
    end.
  (** src/zip/back.rs:9-14 *)
  Fixpoint encode_loop_says (fuel : nat) (steps : nat) (e : benc S) : says mark writer unit :=
    match steps with
    | O => hush io_panic
    | Datatypes.S steps =>
        match symbols_says fuel [] e with
        | (o, (Ok [], _)) => after o (hush (io_ret tt))
        | (o, (Ok channel, e)) =>
            after o (says_bind (says_iter ser_symbol_says channel) (fun _ => encode_loop_says fuel steps e))
        | (o, (_, _)) => after o (hush io_panic)
        end
    end.
End Encoder.
(** src/zip/back.rs:5-16 *)
Definition zip_back_says {S} (next : nextf S N) (pr : profile) (caps : nat -> nat) (fuel : nat) (s : S) : says mark writer unit :=
  encode_loop_says next MAX_RING_BUFFER_SIZE pr caps fuel fuel (benc_new MAX_RING_BUFFER_SIZE s).
