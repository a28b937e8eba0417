(** * Model of the choice of a codec: the [FromStr] implementations and src/codec.rs. *)
From Coq Require Import String.
From Verif Require Import Base Prs Regex Img Float HilbertC.
Close Scope string_scope.
Open Scope list_scope.

(** src/codec.rs:31-39 and 120-127: [enum AnyCodec] *)
Inductive any_codec :=
| ClusterColors (n : N)
| VoronoiCluster (n : N)
| Delta
| Hilbert (m : method)
| Hufman
| Zip (k : zip_kind).

(** Conversions of [String] errors (src/prs.rs:171-175) and of [res] *)
Definition or_other {A} (r : res A) : parsed A := match r with Ok x => POk x | Err => PErr Other | Panic => PPanic end.
(** [Option::ok_or] *)
Definition opt_or {A} (o : option A) (e : parse_error) : parsed A := match o with Some x => POk x | None => PErr e end.
(** [?] *)
Definition pbind {A B} (r : parsed A) (k : A -> parsed B) : parsed B := match r with POk x => k x | PErr e => PErr e | PPanic => PPanic end.

Section Select.
  (** The build; [\d] of the regex crate (Unicode decimal digits); [f64::from_str] *)
  Variables (p : profile) (is_digit : N -> bool) (parse_f64 : text -> option f64).

  (** The number in a pattern [...\((\d+)\)] *)
  Definition number_in (r : re) (s : text) : parsed N :=
    pbind (opt_or (captures r s) Other) (fun m =>
    if negb (List.length m =? 2)%nat then PErr Other
    else match nth_error m 1 with
         | Some (Some digits) => or_other (usize_from_str digits)
         | _ => PPanic
         end).
  (** src/codec/clusterc.rs:125, the pattern c(?:luster)?-?col(?:ors)?\((\d+)\) *)
  Definition cluster_re : re :=
    Seq (lit (txt "c")) (Seq (opt_lit (txt "luster")) (Seq (opt_lit (txt "-")) (Seq (lit (txt "col")) (Seq (opt_lit (txt "ors"))
      (Seq (Chr LPAREN) (Seq (Grp (Plus is_digit)) (Chr RPAREN))))))).
  (** src/codec/clusterc.rs:116-141 *)
  Definition cluster_from_str (s : text) : parsed any_codec := pbind (number_in cluster_re s) (fun n => POk (ClusterColors n)).
  (** src/codec/clusterc.rs:281, the pattern voronoi\((\d+)\) *)
  Definition voronoi_re : re := Seq (lit (txt "voronoi")) (Seq (Chr LPAREN) (Seq (Grp (Plus is_digit)) (Chr RPAREN))).
  (** src/codec/clusterc.rs:274-297 *)
  Definition voronoi_from_str (s : text) : parsed any_codec := pbind (number_in voronoi_re s) (fun n => POk (VoronoiCluster n)).
  (** src/codec/hilbertc.rs:575-582 *)
  Definition delta_from_str (s : text) : parsed any_codec := pbind (expect_name s (lit (txt "delta"))) (fun _ => POk Delta).
  (** src/codec/hilbertc.rs:358-381 *)
  Definition parse_rle (s : text) : parsed method :=
    pbind
      (match matches_fully s (lit (txt "rle")) with
       | Some _ => POk (f64_of_N 0)
       | None =>
           pbind (or_other (fun_call p s)) (fun '(rle, args) =>
           pbind (opt_or (matches_fully rle (lit (txt "rle"))) (WrongName rle)) (fun _ =>
           if (1 <? List.length args)%nat then PErr (WrongNumberOfArguments 1 (N.of_nat (List.length args)))
           else match args with
                | [] => PPanic                                             (* assert_ne!, line 374 *)
                | a :: _ => opt_or (parse_f64 a) Other
                end))
       end)
      (fun d => POk (RLE d)).
  (** src/codec/hilbertc.rs:383-388 *)
  Definition parse_zip (s : text) : parsed method :=
    match matches_fully s (lit (txt "zip")) with Some _ => POk MZip | None => PErr (WrongName s) end.
  (** A parser without effects *)
  Definition pure {A} (f : text -> parsed A) : text -> unit -> parsed A * unit := fun s u => (f s, u).
  (** src/codec/hilbertc.rs:354-395 *)
  Definition method_from_str (s : text) : parsed method :=
    fst (try_all [(txt "rle", pure parse_rle); (txt "zip", pure parse_zip)] s tt).
  (** The pattern [Hh]ilbert (src/codec/hilbertc.rs:343) *)
  Definition hilbert_re : re := Seq (Cls (fun c => (c =? 72) || (c =? 104))%N) (lit (txt "ilbert")).
  (** src/codec/hilbertc.rs:337-352 *)
  Definition hilbert_from_str (s : text) : parsed any_codec :=
    pbind (or_other (fun_call p s)) (fun '(hilbert, args) =>
    pbind (opt_or (matches_fully hilbert hilbert_re) Other) (fun _ =>
    if negb (List.length args =? 1)%nat then PErr (WrongNumberOfArguments 1 (N.of_nat (List.length args)))
    else match args with
         | [] => PPanic
         | a :: _ => pbind (method_from_str a) (fun m => POk (Hilbert m))
         end)).
  (** src/codec/hufc.rs:51-63 *)
  Definition hufman_from_str (s : text) : parsed any_codec :=
    if eq_ignore_ascii_case s (txt "hufman") then POk Hufman else PErr Other.
  (** src/codec/zipc.rs:62-81 *)
  Definition zip_from_str (s : text) : parsed any_codec :=
    pbind (or_other (fun_call p s)) (fun '(zip_name, zip_args) =>
    pbind (opt_or (matches_fully zip_name (lit (txt "zip"))) Other) (fun _ =>
    if negb (List.length zip_args =? 1)%nat then PErr Other
    else match zip_args with
         | [] => PPanic
         | a :: _ => if text_eqb a (txt "dict") then POk (Zip ZDict) else if text_eqb a (txt "back") then POk (Zip ZBack) else PErr Other
         end)).
  (** src/codec.rs:41-59 and 120-127: the alternatives, in order *)
  Definition any_codec_from_str (s : text) : parsed any_codec :=
    fst (try_all [(txt "ClusterColors", pure cluster_from_str); (txt "VoronoiCluster", pure voronoi_from_str); (txt "Delta", pure delta_from_str);
                  (txt "Hilbert", pure hilbert_from_str); (txt "Hufman", pure hufman_from_str); (txt "Zip", pure zip_from_str)] s tt).
End Select.
