(** * Reading back what csv.writer wrote *)
From Coq Require Import List Ascii Bool String.
From Verif Require Import Model.Base Model.Storage Model.CsvText.
Import ListNotations.

Lemma ends_plain c rest : line_break c = false -> line_ends c rest = false.
Proof. unfold line_break, line_ends. intros H. apply orb_false_elim in H. destruct H as [-> ->]. reflexivity. Qed.
Lemma plain_eqs c : needs_quotes c = false -> Ascii.eqb c comma = false /\ Ascii.eqb c quote = false /\ line_break c = false.
Proof. unfold needs_quotes. intros H. apply orb_false_elim in H. destruct H as [H L]. apply orb_false_elim in H. tauto. Qed.
Lemma in_field s : forall f row rows rest, existsb needs_quotes s = false -> read_from (Reader InField f row rows) (s ++ rest) = read_from (Reader InField (f ++ s) row rows) rest.
Proof.
  induction s as [|c s IH]; intros f row rows rest H; cbn [app]; [now rewrite app_nil_r|]. cbn [existsb] in H. apply orb_false_elim in H. destruct H as [Hc Hs]. destruct (plain_eqs c Hc) as (A & B & C).
  cbn [read_from feed r_mode]. rewrite C, A. rewrite (ends_plain c _ C). unfold add_char; cbn [r_field r_row r_rows]. rewrite IH by exact Hs. rewrite <- app_assoc. reflexivity.
Qed.
Lemma quote_plain : line_break quote = false. Proof. reflexivity. Qed.
Lemma in_quotes s : forall f row rows rest, read_from (Reader InQuotes f row rows) (double_quotes s ++ rest) = read_from (Reader InQuotes (f ++ s) row rows) rest.
Proof.
  induction s as [|c s IH]; intros f row rows rest; cbn [double_quotes app]; [now rewrite app_nil_r|]. destruct (Ascii.eqb c quote) eqn:E.
  - apply Ascii.eqb_eq in E. subst c. cbn [app read_from feed r_mode]. rewrite Ascii.eqb_refl, (ends_plain quote _ quote_plain). cbn [go r_mode read_from feed]. rewrite Ascii.eqb_refl, (ends_plain quote _ quote_plain).
    unfold add_char; cbn [go r_field r_row r_rows]. rewrite IH, <- app_assoc. reflexivity.
  - cbn [app read_from feed r_mode]. rewrite E. unfold add_char; cbn [r_field r_row r_rows]. replace (if line_ends c (double_quotes s ++ rest) then feed_end (Reader InQuotes (f ++ [c]) row rows) else Reader InQuotes (f ++ [c]) row rows) with (Reader InQuotes (f ++ [c]) row rows) by (now destruct (line_ends c _)).
    rewrite IH, <- app_assoc. reflexivity.
Qed.
Definition at_start (m : mode) : Prop := m = StartRecord \/ m = StartField.
Lemma feed_at_start m c row rows : at_start m -> line_break c = false -> feed c (Reader m [] row rows) = Some (feed_start c (Reader m [] row rows)).
Proof. intros [-> | ->] H; cbn; [now rewrite H|reflexivity]. Qed.
Lemma comma_plain : line_break comma = false. Proof. reflexivity. Qed.
Lemma field_comma s m row rows rest : at_start m -> read_from (Reader m [] row rows) (write_field s ++ comma :: rest) = read_from (Reader StartField [] (row ++ [s]) rows) rest.
Proof.
  intros M. unfold write_field. destruct (existsb needs_quotes s) eqn:E.
  - cbn [app]. rewrite <- app_assoc. cbn [read_from]. rewrite (feed_at_start m quote row rows M quote_plain). rewrite (ends_plain quote _ quote_plain). unfold feed_start. rewrite quote_plain, Ascii.eqb_refl. unfold go; cbn [r_field r_row r_rows].
    rewrite in_quotes. cbn [app read_from feed r_mode]. rewrite Ascii.eqb_refl, (ends_plain quote _ quote_plain). unfold go; cbn [r_field r_row r_rows read_from feed r_mode]. rewrite (ends_plain comma _ comma_plain).
    change (Ascii.eqb comma quote) with false. rewrite Ascii.eqb_refl. reflexivity.
  - destruct s as [|c s].
    + cbn [app read_from]. rewrite (feed_at_start m comma row rows M comma_plain), (ends_plain comma _ comma_plain). reflexivity.
    + cbn [existsb] in E. apply orb_false_elim in E. destruct E as [Hc Hs]. destruct (plain_eqs c Hc) as (A & B & C). cbn [app read_from]. rewrite (feed_at_start m c row rows M C), (ends_plain c _ C). unfold feed_start. rewrite C, B, A. unfold add_char; cbn [r_field r_row r_rows app].
      change (c :: s) with ([c] ++ s). rewrite in_field by exact Hs. cbn [read_from feed r_mode]. rewrite comma_plain, Ascii.eqb_refl, (ends_plain comma _ comma_plain). reflexivity.
Qed.
Lemma field_end s m row rows rest : at_start m -> (m = StartRecord -> s <> []) -> read_from (Reader m [] row rows) (write_field s ++ CR :: LF :: rest) = read_from (Reader StartRecord [] [] (rows ++ [row ++ [s]])) rest.
Proof.
  intros M N. unfold write_field. destruct (existsb needs_quotes s) eqn:E.
  - cbn [app]. rewrite <- app_assoc. cbn [read_from]. rewrite (feed_at_start m quote row rows M quote_plain). rewrite (ends_plain quote _ quote_plain). unfold feed_start. rewrite quote_plain, Ascii.eqb_refl. unfold go; cbn [r_field r_row r_rows].
    rewrite in_quotes. cbn [app]. cbn [read_from]. cbn [feed r_mode]. rewrite Ascii.eqb_refl, (ends_plain quote _ quote_plain). reflexivity.
  - destruct s as [|c s].
    + destruct M as [-> | ->]; [now destruct (N eq_refl)|]. reflexivity.
    + cbn [existsb] in E. apply orb_false_elim in E. destruct E as [Hc Hs]. destruct (plain_eqs c Hc) as (A & B & C). cbn [app]. cbn [read_from]. rewrite (feed_at_start m c row rows M C), (ends_plain c _ C). unfold feed_start. rewrite C, B, A. unfold add_char; cbn [r_field r_row r_rows app].
      change (c :: s) with ([c] ++ s). rewrite in_field by exact Hs. reflexivity.
Qed.
Lemma fields_read l : forall m row rows rest, l <> [] -> at_start m -> (m = StartRecord -> l <> [[]]) ->
  read_from (Reader m [] row rows) (join_fields l ++ CR :: LF :: rest) = read_from (Reader StartRecord [] [] (rows ++ [row ++ l])) rest.
Proof.
  induction l as [|s l IH]; intros m row rows rest N M K; [easy|]. destruct l as [|s' l].
  - cbn [join_fields]. apply field_end; auto. intros E Z. subst. now apply (K eq_refl).
  - change (join_fields (s :: s' :: l)) with (write_field s ++ comma :: join_fields (s' :: l)). rewrite <- app_assoc. cbn [app]. rewrite field_comma by exact M.
    rewrite IH; [|easy|now right|intros Z; discriminate Z]. rewrite <- app_assoc. reflexivity.
Qed.
Lemma row_read l rows rest : read_from (Reader StartRecord [] [] rows) (write_row l ++ rest) = read_from (Reader StartRecord [] [] (rows ++ [l])) rest.
Proof.
  unfold write_row. rewrite <- app_assoc. cbn [app]. destruct l as [|s l]; [reflexivity|]. destruct s as [|c s]; [destruct l as [|s' l]|]; [reflexivity| |]; apply (fields_read _ StartRecord [] rows rest); try easy; now left.
Qed.
Lemma rows_read rows : forall before rest, read_from (Reader StartRecord [] [] before) (write_rows rows ++ rest) = read_from (Reader StartRecord [] [] (before ++ rows)) rest.
Proof.
  unfold write_rows. induction rows as [|l rows IH]; intros before rest; cbn [map concat app]; [now rewrite app_nil_r|]. rewrite <- app_assoc, row_read, IH, <- app_assoc. reflexivity.
Qed.
Lemma read_back rows : read_csv (write_rows rows) = Some rows.
Proof. unfold read_csv. rewrite <- (app_nil_r (write_rows rows)), rows_read. reflexivity. Qed.
Lemma file_rows {K D} (sk : K -> text) (sv : D -> text) ls :
  file_text sk sv ls = write_rows (map (fun l => match l with Names ks => map sk ks | Values ds => map sv ds end) ls).
Proof. unfold file_text, write_rows. rewrite map_map. f_equal. apply map_ext. now intros [l|l]. Qed.
