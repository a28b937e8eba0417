(** * Model of the dump [--special=hilbert] with its files (src/main.rs:29-50).

    [Special.dump] says which files a dump writes when nothing goes wrong.  Here: the
    order of the effects, and what is left behind when something does go wrong. *)
From Coq Require Import String.
From Verif Require Import Base Prs Img HilbertC HufSpec Special CsvText.
Close Scope string_scope.
Open Scope list_scope.

(** The files with their texts *)
Definition disk := text -> option text.
(** A new or overwritten file *)
Definition put_file (name t : text) (fs : disk) : disk := fun f => if text_eqb f name then Some t else fs f.

Section Dumper.
  Variables (p : profile) (scan : scanner) (opens : text -> option img).
  (** Which files can be created (src/main.rs:37), and to which all can be written *)
  Variables (creates writes : text -> bool).

  (** What the three iterators compute before the file is created, the positions to
      visit: src/hilbert.rs:10-12 and 34-43 *)
  Definition positions_rect (im : img) : res (list (N * N)) := Ok (scan (im_w im) (im_h im)).
  (** src/hilbert.rs:15-20 *)
  Definition positions_small (im : img) : res (list (N * N)) :=
    res_bind (npot p (im_w im)) (fun nx => res_bind (npot p (im_h im)) (fun ny =>
    let order := N.min (N.shiftr nx 1) (N.shiftr ny 1) in Ok (scan order order))).
  (** src/hilbert.rs:25-30 *)
  Definition positions_large (im : img) : res (list (N * N)) :=
    res_bind (npot p (im_w im)) (fun nx => res_bind (npot p (im_h im)) (fun ny =>
    let order := N.max nx ny in Ok (filter (fun '(x, y) => (x <? im_w im) && (y <? im_h im))%N (scan order order)))).

  (** src/main.rs:37-40: one file, once its name is known.  The pixels are read while
      the rows are written (src/hilbert.rs:21, 31, 42).  The writer collects rows before
      it writes them to the file; when it is dropped, also during a panic, it writes the
      rest and ignores errors.  So when writing fails the file may end early, with or
      without a panic. *)
  Inductive write_sheet (im : img) (ps : list (N * N)) (name : text) (fs : disk) : res unit -> disk -> Prop :=
  | sheet_missing : creates name = false -> write_sheet im ps name fs Panic fs
  | sheet_done l : creates name = true -> writes name = true -> res_mapM (get_pixel im) ps = Ok l ->
      write_sheet im ps name fs (Ok tt) (put_file name (dump_text (dump_table l)) fs)
  | sheet_bad_pixel ps1 q ps2 l : creates name = true -> writes name = true -> ps = ps1 ++ q :: ps2 -> res_mapM (get_pixel im) ps1 = Ok l -> get_pixel im q = Panic ->
      write_sheet im ps name fs Panic (put_file name (dump_text (dump_table l)) fs)
  | sheet_full out t ps1 ps2 l : creates name = true -> writes name = false -> ps = ps1 ++ ps2 -> res_mapM (get_pixel im) ps1 = Ok l -> prefix t (dump_text (dump_table l)) ->
      out = Panic \/ (out = Ok tt /\ ps2 = []) -> write_sheet im ps name fs out (put_file name t fs).
  (** src/main.rs:35-36 and 45-47: the positions, then the name, then the file; for the
      methods that are left *)
  Inductive write_sheets (path : text) (im : img) : list (text * res (list (N * N))) -> disk -> res unit -> disk -> Prop :=
  | sheets_none fs : write_sheets path im [] fs (Ok tt) fs
  | sheets_panic meth rest fs : write_sheets path im ((meth, Panic) :: rest) fs Panic fs
  | sheets_no_name meth ps rest fs : dump_file path meth = Panic -> write_sheets path im ((meth, Ok ps) :: rest) fs Panic fs
  | sheets_stop meth ps name rest fs fs' : dump_file path meth = Ok name -> write_sheet im ps name fs Panic fs' ->
      write_sheets path im ((meth, Ok ps) :: rest) fs Panic fs'
  | sheets_more meth ps name rest fs fs1 out fs2 : dump_file path meth = Ok name -> write_sheet im ps name fs (Ok tt) fs1 ->
      write_sheets path im rest fs1 out fs2 -> write_sheets path im ((meth, Ok ps) :: rest) fs out fs2.
  (** src/main.rs:45-47 *)
  Definition methods (im : img) : list (text * res (list (N * N))) :=
    [(txt "rect", positions_rect im); (txt "small", positions_small im); (txt "large", positions_large im)].
  (** src/main.rs:31-48: one path after the other *)
  Inductive dumps : list text -> disk -> res unit -> disk -> Prop :=
  | dumps_none fs : dumps [] fs (Ok tt) fs
  | dumps_unreadable path paths fs : opens path = None -> dumps (path :: paths) fs Panic fs
  | dumps_stop path paths im fs fs' : opens path = Some im -> write_sheets path im (methods im) fs Panic fs' -> dumps (path :: paths) fs Panic fs'
  | dumps_more path paths im fs fs1 out fs2 : opens path = Some im -> write_sheets path im (methods im) fs (Ok tt) fs1 ->
      dumps paths fs1 out fs2 -> dumps (path :: paths) fs out fs2.
End Dumper.
