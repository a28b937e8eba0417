(** * Texts of csv files. *)
From Coq Require Import String.
From Verif Require Import Base Prs Img Float Bench SelectSpec Special SpecialProofs ProgramProofs HufSpec PrsTop CsvText CsvSpec.
Close Scope string_scope.
Open Scope list_scope.
Notation length := List.length.

(** ** Reading what was written *)
Lemma read_quoted row s : forall t field, read_rows Quoted field row (double_marks t ++ s) = read_rows Quoted (field ++ t) row s.
Proof.
  induction t as [|c t IH]; intros field; [now rewrite app_nil_r|]. unfold double_marks in *. cbn [map concat]. destruct (c =? MARK)%N eqn:E.
  - apply N.eqb_eq in E. subst c. rewrite <- app_assoc. cbn [app read_rows]. change (MARK =? 34)%N with true. cbv iota. rewrite IH, <- app_assoc. reflexivity.
  - rewrite <- app_assoc. cbn [app read_rows]. change 34%N with MARK. rewrite E. rewrite IH, <- app_assoc. reflexivity.
Qed.
Lemma ordinary c : special_char c = false -> (c =? 44 = false /\ c =? 34 = false /\ c =? 10 = false /\ c =? 13 = false)%N.
Proof. unfold special_char. intros H. apply Bool.orb_false_iff in H as [H D]. apply Bool.orb_false_iff in H as [H A]. apply Bool.orb_false_iff in H as [B C]. auto. Qed.
Lemma read_plain row s : forall t field, existsb special_char t = false -> read_rows Plain field row (t ++ s) = read_rows Plain (field ++ t) row s.
Proof.
  induction t as [|c t IH]; intros field H; [now rewrite app_nil_r|]. cbn [existsb] in H. apply Bool.orb_false_iff in H as [H1 H2].
  apply ordinary in H1 as (H1 & H4 & H3 & H5). cbn [app read_rows]. rewrite H1, H3, H4, H5. cbn [orb]. rewrite IH by exact H2. now rewrite <- app_assoc.
Qed.
(** A field, and the character after it *)
Lemma read_field row s c t : c = COMMA \/ c = LF -> (t <> [] \/ c = COMMA \/ row <> []) ->
  read_rows Fresh [] row (csv_field t ++ c :: s) = if (c =? COMMA)%N then read_rows Fresh [] (row ++ [t]) s
    else match read_rows Fresh [] [] s with Some rows => Some ((row ++ [t]) :: rows) | None => None end.
Proof.
  intros Hc Hn. unfold csv_field. destruct (existsb special_char t) eqn:E.
  - cbn [app]. cbn [read_rows]. change (MARK =? 34)%N with true. cbv iota. rewrite <- app_assoc. rewrite read_quoted. cbn [app read_rows]. change (MARK =? 34)%N with true. cbv iota.
    destruct Hc as [-> | ->]; reflexivity.
  - destruct t as [|x t].
    + cbn [app read_rows]. destruct Hc as [-> | ->]; [reflexivity|]. destruct Hn as [H|[H|H]]; [now destruct H|discriminate|]. destruct row; [now destruct H|reflexivity].
    + cbn [existsb] in E. apply Bool.orb_false_iff in E as [E1 E2]. apply ordinary in E1 as (E1 & E3 & E4 & E5). cbn [app read_rows]. rewrite E1, E3, E4, E5.
      rewrite read_plain by exact E2. cbn [app]. destruct Hc as [-> | ->]; reflexivity.
Qed.
Lemma csv_field_empty t : csv_field t = [] -> t = [].
Proof. unfold csv_field. destruct (existsb special_char t); [discriminate|auto]. Qed.
Lemma csv_fields_empty r : csv_fields r = [] -> r = [] \/ r = [[]].
Proof.
  destruct r as [|t [|u r]]; cbn [csv_fields]; [auto| |].
  - intros H. apply csv_field_empty in H. subst. auto.
  - intros H. apply app_eq_nil in H as [_ H]. discriminate.
Qed.
Lemma read_fields s : forall r row, r <> [] -> (csv_fields r <> [] \/ row <> []) ->
  read_rows Fresh [] row (csv_fields r ++ LF :: s) = match read_rows Fresh [] [] s with Some rows => Some ((row ++ r) :: rows) | None => None end.
Proof.
  induction r as [|t r IH]; intros row Hr Hn; [now destruct Hr|]. destruct r as [|u r].
  - cbn [csv_fields]. rewrite read_field; [reflexivity|now right|]. destruct Hn as [H|H]; [left|now right; right]. intros ->. now apply H.
  - change (csv_fields (t :: u :: r)) with (csv_field t ++ [COMMA] ++ csv_fields (u :: r)). rewrite <- !app_assoc. cbn [app]. rewrite read_field; [|now left|now right; left].
    change (COMMA =? COMMA)%N with true. cbv iota. rewrite IH; [now rewrite <- app_assoc|discriminate|]. right. now destruct row.
Qed.
Lemma read_line s r : r <> [] -> read_rows Fresh [] [] (csv_line r ++ s) = match read_rows Fresh [] [] s with Some rows => Some (r :: rows) | None => None end.
Proof.
  intros Hr. unfold csv_line. destruct (csv_fields r) as [|c l] eqn:E.
  - destruct (csv_fields_empty r E) as [->| ->]; [now destruct Hr|]. reflexivity.
  - rewrite <- app_assoc. rewrite <- E. change ([LF] ++ s) with (LF :: s). rewrite read_fields; [reflexivity|exact Hr|left; rewrite E; discriminate].
Qed.
Lemma read_text : forall rows, Forall (fun r => r <> []) rows -> read_csv_text (csv_text rows) = Some rows.
Proof.
  unfold read_csv_text, csv_text. induction 1 as [|r rows Hr _ IH]; [reflexivity|]. cbn [map concat]. rewrite read_line by exact Hr. now rewrite IH.
Qed.

(** ** The tables *)
Lemma table_read show64 records : exists rows,
  read_csv_text (table_text show64 (Header :: map Row records)) = Some ([txt "name"; txt "compressed_size"; txt "compression_ratio"; txt "error"] :: rows)
  /\ Forall2 (fun '(name, size, ratio, error) fields => exists t, fields = [name; t; show64 ratio; show64 error] /\ digits t /\ number t = size) records rows.
Proof.
  exists (map (fun r => row_fields show64 (Row r)) records). split.
  - unfold table_text. rewrite read_text.
    + cbn [map row_fields]. now rewrite map_map.
    + apply Forall_forall. intros r H. apply in_map_iff in H as (x & <- & _). destruct x as [|[[[a b] c] d]]; discriminate.
  - induction records as [|[[[name size] ratio] error] records IH]; [constructor|]. constructor; [|exact IH].
    exists (decimal size). split; [reflexivity|]. split; [apply decimal_digits|apply decimal_number].
Qed.
Lemma empty_table_read show64 : read_csv_text (table_text show64 []) = Some [].
Proof. reflexivity. Qed.
Lemma dump_read l : exists rows,
  read_csv_text (dump_text (dump_table l)) = Some ([txt "red"; txt "blue"; txt "green"] :: rows)
  /\ Forall2 (fun (px : rgba) fields => exists r g b, fields = [r; g; b] /\ digits r /\ digits g /\ digits b /\ (number r, number g, number b) = to_rgb px) l rows.
Proof.
  exists (map (fun px : rgba => let '(r, g, b) := to_rgb px in [decimal r; decimal g; decimal b]) l). split.
  - unfold dump_text. rewrite read_text.
    + unfold dump_table. cbn [map cell_text]. do 2 f_equal. rewrite map_map. apply map_ext. intros px. now destruct (to_rgb px) as [[r g] b].
    + apply Forall_forall. intros r H. apply in_map_iff in H as (x & <- & H). unfold dump_table in H. destruct H as [<-|H]; [discriminate|].
      apply in_map_iff in H as (px & <- & _). destruct (to_rgb px) as [[a b] c]. discriminate.
  - induction l as [|px l IH]; [constructor|]. constructor; [|exact IH]. destruct (to_rgb px) as [[r g] b].
    exists (decimal r), (decimal g), (decimal b). rewrite !decimal_number. split; [reflexivity|]. split; [apply decimal_digits|]. split; [apply decimal_digits|]. split; [apply decimal_digits|reflexivity].
Qed.
