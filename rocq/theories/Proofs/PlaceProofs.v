(** * Proofs about the places of results *)
From Coq Require Import Lia.
From Verif Require Import Spec.Places Model.SavePaths Proofs.StorageProofs Proofs.SavingProofs.
From Coq Require Import Ascii.
Open Scope list_scope.
Open Scope nat_scope.

(** ** Names with timestamps *)
Lemma digit_inj a b : a < 10 -> b < 10 -> digit a = digit b -> a = b.
Proof.
  intros A B E. apply (f_equal nat_of_ascii) in E. unfold digit in E. rewrite !nat_ascii_embedding in E by lia. lia.
Qed.
Lemma digit_not n c : n < 10 -> nat_of_ascii c < 48 \/ 57 < nat_of_ascii c -> digit n <> c.
Proof. intros N C E. subst c. unfold digit in C. rewrite nat_ascii_embedding in C by lia. lia. Qed.
Lemma cons_inj c d s t : String c s = String d t -> c = d /\ s = t.
Proof. intros E. split; [exact (f_equal (fun x => match x with String c _ => c | _ => c end) E)|exact (f_equal (fun x => match x with String _ s => s | _ => s end) E)]. Qed.
Lemma two_inj a b s t : a < 100 -> b < 100 -> (two a ++ s)%string = (two b ++ t)%string -> a = b /\ s = t.
Proof.
  intros A B E. apply cons_inj in E as [E1 E]. apply cons_inj in E as [E2 E3]. split; [|exact E3].
  apply digit_inj in E1; [|apply Nat.div_lt_upper_bound; lia|apply Nat.div_lt_upper_bound; lia].
  apply digit_inj in E2; [|apply Nat.mod_upper_bound; lia|apply Nat.mod_upper_bound; lia].
  rewrite (Nat.div_mod a 10), (Nat.div_mod b 10); lia.
Qed.
Lemma four_inj a b s t : a < 100 * 100 -> b < 100 * 100 -> (four a ++ s)%string = (four b ++ t)%string -> a = b /\ s = t.
Proof.
  intros A B E. unfold four in E. rewrite !string_app_assoc in E. apply two_inj in E as [E1 E]; [|apply Nat.div_lt_upper_bound; lia|apply Nat.div_lt_upper_bound; lia].
  apply two_inj in E as [E2 E]; [|apply Nat.mod_upper_bound; lia|apply Nat.mod_upper_bound; lia]. split; [|exact E].
  rewrite (Nat.div_mod a 100), (Nat.div_mod b 100); lia.
Qed.
Lemma six_inj a b s t : a < 100 * (100 * 100) -> b < 100 * (100 * 100) -> (six a ++ s)%string = (six b ++ t)%string -> a = b /\ s = t.
Proof.
  intros A B E. unfold six in E. rewrite !string_app_assoc in E.
  assert (L : forall n, n < 100 * (100 * 100) -> n / 100 < 100 * 100) by (intros; apply Nat.div_lt_upper_bound; lia).
  apply two_inj in E as [E1 E]; [|apply Nat.div_lt_upper_bound; [lia|]; now apply L|apply Nat.div_lt_upper_bound; [lia|]; now apply L].
  apply two_inj in E as [E2 E]; [|apply Nat.mod_upper_bound; lia|apply Nat.mod_upper_bound; lia].
  apply two_inj in E as [E3 E]; [|apply Nat.mod_upper_bound; lia|apply Nat.mod_upper_bound; lia]. split; [|exact E].
  rewrite (Nat.div_mod a 100), (Nat.div_mod b 100) by lia. rewrite (Nat.div_mod (a / 100) 100), (Nat.div_mod (b / 100) 100) by lia. lia.
Qed.
(** Blanks are underscores in the name of the directory. *)
Definition stamp (t : moment) : string :=
  (four (m_year t) ++ "-" ++ two (m_month t) ++ "-" ++ two (m_day t) ++ "_" ++
   two (m_hour t) ++ ":" ++ two (m_minute t) ++ ":" ++ two (m_second t) ++
   (if Nat.eqb (m_micro t) 0 then "" else "." ++ six (m_micro t)) ++ "+00:00")%string.
Lemma replace_app a b s t : replace_char a b (s ++ t)%string = (replace_char a b s ++ replace_char a b t)%string.
Proof. induction s as [|c s IH]; cbn; [reflexivity|]. now rewrite IH. Qed.
Lemma replace_two n : n < 100 -> replace_char " " "_" (two n) = two n.
Proof.
  intros N. unfold two. cbn [replace_char]. assert (X : forall m, m < 10 -> Ascii.eqb (digit m) " " = false).
  { intros m M. apply Ascii.eqb_neq. apply digit_not; [exact M|]. left. cbn. lia. }
  rewrite !X; [reflexivity|apply Nat.mod_upper_bound; lia|apply Nat.div_lt_upper_bound; lia].
Qed.
Lemma replace_moment t : real_moment t -> replace_char " " "_" (str_moment t) = stamp t.
Proof.
  intros (Y & M & Dy & H & Mi & S & U). unfold str_moment, stamp, four. rewrite !replace_app, !replace_two; try lia.
  - destruct (Nat.eqb (m_micro t) 0); [reflexivity|]. unfold six. rewrite !replace_app, !replace_two; [reflexivity|apply Nat.mod_upper_bound; lia|apply Nat.mod_upper_bound; lia|].
    apply Nat.div_lt_upper_bound; [lia|]. apply Nat.div_lt_upper_bound; lia.
  - apply Nat.mod_upper_bound; lia.
  - apply Nat.div_lt_upper_bound; lia.
Qed.
Lemma stamp_inj t t' : real_moment t -> real_moment t' -> stamp t = stamp t' -> t = t'.
Proof.
  intros (Y & M & Dy & H & Mi & S & U) (Y' & M' & Dy' & H' & Mi' & S' & U') E. unfold stamp in E.
  apply four_inj in E as [E1 E]; [|lia|lia]. apply cons_inj in E as [_ E]. apply two_inj in E as [E2 E]; [|lia|lia]. apply cons_inj in E as [_ E].
  apply two_inj in E as [E3 E]; [|lia|lia]. apply cons_inj in E as [_ E]. apply two_inj in E as [E4 E]; [|lia|lia]. apply cons_inj in E as [_ E].
  apply two_inj in E as [E5 E]; [|lia|lia]. apply cons_inj in E as [_ E]. apply two_inj in E as [E6 E]; [|lia|lia].
  assert (E7 : m_micro t = m_micro t').
  { destruct (Nat.eqb_spec (m_micro t) 0) as [Z|Z], (Nat.eqb_spec (m_micro t') 0) as [Z'|Z']; [lia|cbn [append] in E; discriminate|cbn [append] in E; discriminate|].
    rewrite !string_app_assoc in E. apply cons_inj in E as [_ E]. apply six_inj in E as [E _]; lia. }
  clear - E1 E2 E3 E4 E5 E6 E7. destruct t, t'. cbn in *. congruence.
Qed.
Lemma append_inj : forall a b s t, String.length s = String.length t -> (a ++ s)%string = (b ++ t)%string -> a = b /\ s = t.
Proof.
  assert (LA : forall a s, String.length (a ++ s)%string = String.length a + String.length s) by (induction a; cbn; intros; [reflexivity|]; now rewrite IHa).
  induction a as [|c a IH]; intros [|c' b] s t L E; cbn in E.
  - now split.
  - apply (f_equal String.length) in E. cbn in E. rewrite LA in E. lia.
  - apply (f_equal String.length) in E. cbn in E. rewrite LA in E. lia.
  - apply cons_inj in E as [-> E]. apply IH in E as [-> ->]; auto.
Qed.
(** The short form and the long form of a stamp never end a common string. *)
Lemma stamp_forms n n' t t' : real_moment t -> real_moment t' -> m_micro t = 0 -> m_micro t' <> 0 -> (n ++ "_" ++ stamp t)%string <> (n' ++ "_" ++ stamp t')%string.
Proof.
  intros R R' Z Z' E. unfold stamp in E. apply Nat.eqb_neq in Z'. rewrite Z', Z in E. cbn [Nat.eqb] in E.
  set (y := m_year t') in E. set (m := m_month t') in E.
  assert (X : exists rest, (n' ++ "_" ++ four y ++ "-" ++ two m ++ "-" ++ two (m_day t') ++ "_" ++ two (m_hour t') ++ ":" ++ two (m_minute t') ++ ":" ++ two (m_second t') ++ ("." ++ six (m_micro t')) ++ "+00:00")%string
    = ((n' ++ "_" ++ four y ++ "-" ++ String (digit (m / 10)) EmptyString) ++ String (digit (m mod 10)) rest)%string /\ String.length rest = 25).
  { eexists. split; [rewrite !string_app_assoc; unfold two at 1; cbn [append]; reflexivity|]. reflexivity. }
  destruct X as (rest & X & L). rewrite X in E. apply append_inj in E as [_ E]; [|cbn [append String.length]; rewrite L; reflexivity].
  apply cons_inj in E as [E _]. symmetry in E. revert E. apply digit_not; [apply Nat.mod_upper_bound; lia|]. right. cbn. lia.
Qed.
Lemma names_differ n n' t t' : real_moment t -> real_moment t' -> name_with_timestamp n t = name_with_timestamp n' t' -> n = n' /\ t = t'.
Proof.
  intros R R' E. unfold name_with_timestamp in E. rewrite !replace_moment in E by assumption.
  destruct (Nat.eq_dec (m_micro t) 0) as [Z|Z], (Nat.eq_dec (m_micro t') 0) as [Z'|Z'].
  - apply append_inj in E as [-> E]; [|unfold stamp; rewrite Z, Z'; reflexivity]. apply cons_inj in E as [_ E]. split; [reflexivity|]. now apply stamp_inj.
  - exfalso. exact (stamp_forms n n' t t' R R' Z Z' E).
  - exfalso. symmetry in E. exact (stamp_forms n' n t' t R' R Z' Z E).
  - apply append_inj in E as [-> E].
    + apply cons_inj in E as [_ E]. split; [reflexivity|]. now apply stamp_inj.
    + unfold stamp. apply Nat.eqb_neq in Z, Z'. rewrite Z, Z'. reflexivity.
Qed.

(** ** Paths *)
Lemma slash_split : forall a b f g, no_slash f -> no_slash g -> (a ++ "/" ++ f)%string = (b ++ "/" ++ g)%string -> a = b /\ f = g.
Proof.
  unfold no_slash. induction a as [|c a IH]; intros [|c' b] f g F G E.
  - apply cons_inj in E as [_ E]. now split.
  - apply cons_inj in E as [_ E]. exfalso. cbn [append] in E. rewrite E, has_char_app in F. cbn in F. now rewrite orb_true_r in F.
  - apply cons_inj in E as [_ E]. exfalso. cbn [append] in E. rewrite <- E, has_char_app in G. cbn in G. now rewrite orb_true_r in G.
  - apply cons_inj in E as [-> E]. apply IH in E as [-> ->]; auto.
Qed.
Lemma app_empty_r s : (s ++ "")%string = s.
Proof. induction s as [|c s IH]; cbn; [reflexivity|]. now rewrite IH. Qed.
Lemma no_slash_start f : no_slash f -> startswith f "/" = false.
Proof. unfold no_slash, startswith. destruct f as [|c f]; [reflexivity|]. intros F. cbn [has_char] in F. apply orb_false_iff in F as [F _]. apply Ascii.eqb_neq in F. cbn [String.prefix]. destruct (ascii_dec "/" c); [contradiction|reflexivity]. Qed.
Lemma no_slash_end f : no_slash f -> endswith f "/" = false.
Proof.
  unfold no_slash. induction f as [|c f IH]; [reflexivity|]. cbn [has_char endswith]. intros F. apply orb_false_iff in F as [F1 F2]. rewrite IH by exact F2. rewrite orb_false_r.
  destruct (String.eqb_spec (String c f) "/") as [E|E]; [|reflexivity]. injection E as -> ->. discriminate.
Qed.
Lemma end_app a f : f <> ""%string -> endswith (a ++ f) "/" = endswith f "/".
Proof.
  intros F. induction a as [|c a IH]; [reflexivity|]. cbn [append endswith]. rewrite IH. destruct (String.eqb_spec (String c (a ++ f)) "/") as [E|E]; [|reflexivity].
  injection E as _ E. destruct a; [contradiction|discriminate].
Qed.
Definition proper (d : string) : Prop := d <> ""%string /\ endswith d "/" = false.
Lemma join_file d f : proper d -> no_slash f -> path_join d f = file_of d f.
Proof.
  intros [D1 D2] F. unfold path_join, file_of. rewrite no_slash_start by exact F. apply String.eqb_neq in D1. rewrite D1, D2. reflexivity.
Qed.
Lemma join_cases a b : no_slash b -> path_join a b = b \/ exists q, path_join a b = (q ++ "/" ++ b)%string.
Proof.
  intros B. unfold path_join. rewrite no_slash_start by exact B. destruct (String.eqb_spec a "") as [->|N]; [left; reflexivity|]. cbn [orb].
  destruct (endswith a "/") eqn:E; [|right; eauto]. right. clear N.
  enough (X : exists q, a = (q ++ "/")%string) by (destruct X as [q ->]; exists q; now rewrite string_app_assoc).
  induction a as [|c a IH]; [discriminate|]. cbn [endswith] in E. apply orb_true_iff in E as [E|E].
  - apply String.eqb_eq in E. exists ""%string. exact E.
  - destruct (IH E) as [q Q]. exists (String c q). cbn. now rewrite <- Q.
Qed.
Lemma full_path_proper cwd base nm : no_slash nm -> nm <> ""%string -> proper (full_path cwd base nm).
Proof.
  intros S N. unfold full_path. destruct (join_cases (abspath cwd base) nm S) as [E|[q E]]; rewrite E; split.
  - exact N.
  - now apply no_slash_end.
  - destruct q; discriminate.
  - rewrite <- string_app_assoc, end_app by exact N. now apply no_slash_end.
Qed.
Lemma full_path_inj cwd cwd' base base' nm nm' : no_slash nm -> no_slash nm' -> full_path cwd base nm = full_path cwd' base' nm' -> nm = nm'.
Proof.
  intros S S' E. unfold full_path in E. destruct (join_cases (abspath cwd base) nm S) as [X|[q X]], (join_cases (abspath cwd' base') nm' S') as [Y|[r Y]]; rewrite X, Y in E.
  - exact E.
  - exfalso. unfold no_slash in S. rewrite E, has_char_app in S. cbn in S. now rewrite orb_true_r in S.
  - exfalso. unfold no_slash in S'. rewrite <- E, has_char_app in S'. cbn in S'. now rewrite orb_true_r in S'.
  - apply slash_split in E as [_ E]; assumption.
Qed.
Lemma digit_has c n : n < 10 -> nat_of_ascii c < 48 \/ 57 < nat_of_ascii c -> Ascii.eqb c (digit n) = false.
Proof. intros N C. apply Ascii.eqb_neq. intros E. symmetry in E. revert E. now apply digit_not. Qed.
Lemma two_has c n : n < 100 -> nat_of_ascii c < 48 \/ 57 < nat_of_ascii c -> has_char c (two n) = false.
Proof.
  intros N C. unfold two. cbn [has_char]. rewrite !digit_has; try assumption; [reflexivity|apply Nat.mod_upper_bound; lia|apply Nat.div_lt_upper_bound; lia].
Qed.
Lemma stamp_no_slash t : real_moment t -> has_char "/" (stamp t) = false.
Proof.
  intros (Y & M & Dy & H & Mi & S & U). assert (C : nat_of_ascii "/" < 48 \/ 57 < nat_of_ascii "/") by (left; cbn; lia).
  unfold stamp, four, six. rewrite !has_char_app, !two_has; try assumption; try lia; try (apply Nat.mod_upper_bound; lia); try (apply Nat.div_lt_upper_bound; lia).
  destruct (Nat.eqb (m_micro t) 0); [reflexivity|]. rewrite !has_char_app, !two_has; try assumption; [reflexivity|apply Nat.mod_upper_bound; lia|apply Nat.mod_upper_bound; lia|].
  apply Nat.div_lt_upper_bound; [lia|]. apply Nat.div_lt_upper_bound; lia.
Qed.
Lemma name_no_slash name t : real_moment t -> no_slash name -> no_slash (name_with_timestamp name t).
Proof.
  intros R N. unfold no_slash, name_with_timestamp. rewrite replace_moment by exact R. rewrite !has_char_app, stamp_no_slash by exact R. rewrite N. reflexivity.
Qed.
Lemma name_nonempty name t : name_with_timestamp name t <> ""%string.
Proof. unfold name_with_timestamp. destruct name; discriminate. Qed.

(** ** Files of arrays *)
Lemma format_plain i s r t : no_braces s -> format_index i 0 t = Ok r -> format_index i 0 (s ++ t) = Ok (s ++ r)%string.
Proof.
  intros [A B] T. induction s as [|c s IH]; [exact T|]. cbn [has_char] in A, B. apply orb_false_iff in A as [A1 A2], B as [B1 B2].
  cbn [append format_index]. rewrite (Ascii.eqb_sym c "{"), (Ascii.eqb_sym c "}"), A1, B1. rewrite IH by assumption. reflexivity.
Qed.
Lemma array_path d i : proper d -> no_braces d -> npy_path d "agents" i = Ok (array_file d i).
Proof.
  intros D B. unfold npy_path. rewrite join_file; [|exact D|reflexivity]. unfold file_of, array_file, file_of. apply format_plain; [exact B|].
  cbn -[str_nat]. reflexivity.
Qed.
Lemma str_nat_inj i j : str_nat i = str_nat j -> i = j.
Proof. intros E. pose proof (parse_str i) as P. rewrite E, parse_str in P. congruence. Qed.
Lemma app_cancel_r a b s : (a ++ s)%string = (b ++ s)%string -> a = b.
Proof. intros E. now apply append_inj in E as [-> _]. Qed.
Lemma array_no_slash i : no_slash ("agents_" ++ str_nat i ++ ".npy")%string.
Proof.
  unfold no_slash. rewrite !has_char_app. destruct (has_char "/" (str_nat i)) eqn:E; [|reflexivity]. apply str_nat_digits in E. discriminate.
Qed.
Lemma array_file_inj d i j : array_file d i = array_file d j -> i = j.
Proof.
  intros E. apply slash_split in E as [_ E]; try apply array_no_slash. apply append_inj with (a := "agents_"%string) (b := "agents_"%string) in E as [_ E].
  - apply app_cancel_r in E. now apply str_nat_inj.
  - apply (f_equal String.length) in E. cbn in E. cbn. lia.
Qed.

(** ** Processes do not touch each other's directories *)
Section Frame.
  Context {A : Type}.
  Notation disk := (disk A). Notation saver := (saver A). Notation action := (action A). Notation status := (status A).
  (** The same files in directory [d]. *)
  Definition agree (d : string) (dk dk' : disk) : Prop := forall f, no_slash f -> dk (file_of d f) = dk' (file_of d f).
  Definition alike (d : string) (r r' : res (disk * saver)) : Prop :=
    match r, r' with
    | Ok (dk, sv), Ok (dk', sv') => agree d dk dk' /\ sv = sv'
    | Err e, Err e' => e = e'
    | _, _ => False
    end.
  Lemma put_agree d (dk dk' : disk) p c : agree d dk dk' -> agree d (put dk p c) (put dk' p c).
  Proof. intros H f F. unfold put. destruct (String.eqb _ p); [reflexivity|]. now apply H. Qed.
  Lemma put_other d d' (dk : disk) f c : d <> d' -> no_slash f -> agree d' dk (put dk (file_of d f) c).
  Proof.
    intros N F g G. unfold put. destruct (String.eqb_spec (file_of d' g) (file_of d f)) as [E|E]; [|reflexivity]. apply slash_split in E as [E _]; congruence.
  Qed.
  Lemma csv_file d b : proper d -> no_slash (b ++ ".csv") -> csv_path d b = file_of d (b ++ ".csv").
  Proof. intros. now apply join_file. Qed.
  Lemma create_alike d (dk dk' : disk) m x : proper d -> agree d dk dk' -> alike d (create dk d m x) (create dk' d m x).
  Proof.
    intros P H. unfold create. rewrite csv_file by (auto; reflexivity). unfold table_at. rewrite (H ("metadata" ++ ".csv")%string) by reflexivity.
    destruct (csv_run _ _); cbn [rbind alike]; [|reflexivity]. split; [now apply put_agree|reflexivity].
  Qed.
  Lemma update_alike (dk dk' : disk) sv u : proper (sv_directory sv) -> agree (sv_directory sv) dk dk' -> alike (sv_directory sv) (update_on dk sv u) (update_on dk' sv u).
  Proof.
    destruct u as [[x d] save]. intros P H. unfold update_on. rewrite csv_file by (auto; reflexivity).
    destruct (npy_run _ _) as [n|e]; cbn [rbind]; [|reflexivity].
    set (r := if save then _ else _). set (r' := if save then _ else _).
    assert (X : match r, r' with Ok a, Ok b => agree (sv_directory sv) a b | Err e, Err e' => e = e' | _, _ => False end).
    { unfold r, r'. destruct save; [|exact H]. destruct (npy_path _ _ _); cbn [rbind]; [|reflexivity]. destruct (vstack _); cbn [rbind]; [|reflexivity]. now apply put_agree. }
    destruct r as [a|e], r' as [b|e']; try contradiction; cbn [rbind]; [|exact X].
    destruct (npy_step n _) as [n'|e]; cbn [rbind]; [|reflexivity].
    unfold on_disk, table_at. rewrite (X ("data" ++ ".csv")%string) by reflexivity.
    destruct (csv_run _ _); cbn [rbind alike]; [|reflexivity]. split; [|reflexivity]. destruct save; [now apply put_agree|exact X].
  Qed.
  Lemma create_other d d' (dk dk1 : disk) m x sv : proper d -> d <> d' -> create dk d m x = Ok (dk1, sv) -> agree d' dk dk1.
  Proof.
    intros P N E. unfold create in E. rewrite csv_file in E by (auto; reflexivity). destruct (csv_run _ _); [|discriminate]. injection E as <- _. apply put_other; [exact N|reflexivity].
  Qed.
  Lemma agree_trans d (a b c : disk) : agree d a b -> agree d b c -> agree d a c.
  Proof. intros H K f F. now rewrite H, K. Qed.
  Lemma update_other d' (dk dk1 : disk) sv sv1 u : proper (sv_directory sv) -> no_braces (sv_directory sv) -> sv_directory sv <> d' ->
    update_on dk sv u = Ok (dk1, sv1) -> agree d' dk dk1.
  Proof.
    destruct u as [[x d] save]. intros P B N E. unfold update_on in E. rewrite csv_file in E by (auto; reflexivity).
    destruct (npy_run _ _) as [n|e]; [|discriminate]. cbn [rbind] in E. destruct save.
    - rewrite array_path in E by assumption. cbn [rbind] in E. destruct (vstack _) as [rows|]; [|discriminate]. cbn [rbind] in E. destruct (npy_step n _) as [n'|]; [|discriminate]. cbn [rbind] in E.
      destruct (csv_run _ _) as [c|]; [|discriminate]. injection E as <- _. apply agree_trans with (put dk (array_file (sv_directory sv) (n_index n)) (Array rows)); apply put_other; try exact N; [apply array_no_slash|reflexivity].
    - cbn [rbind] in E. destruct (npy_step n _) as [n'|]; [|discriminate]. cbn [rbind] in E. destruct (csv_run _ _) as [c|]; [|discriminate]. injection E as <- _. intros f F. reflexivity.
  Qed.
  Lemma update_directory (dk dk1 : disk) sv sv1 u : update_on dk sv u = Ok (dk1, sv1) -> sv_directory sv1 = sv_directory sv.
  Proof.
    destruct u as [[x d] save]. intros E. unfold update_on in E. destruct (npy_run _ _) as [n|e]; [|discriminate]. cbn [rbind] in E.
    destruct (if save then _ else _) as [a|]; [|discriminate]. cbn [rbind] in E. destruct (npy_step n _) as [n'|]; [|discriminate]. cbn [rbind] in E.
    destruct (csv_run _ _) as [c|]; [|discriminate]. now injection E as _ <-.
  Qed.
  Lemma create_directory (dk dk1 : disk) d m x sv : create dk d m x = Ok (dk1, sv) -> sv_directory sv = d.
  Proof. unfold create. destruct (csv_run _ _); [|discriminate]. intros E. now injection E as _ <-. Qed.

  Variable dirs : nat -> string.
  Hypothesis D : forall j, proper (dirs j) /\ no_braces (dirs j).
  Definition settled (st : nat -> status) : Prop := forall j sv, st j = Running sv -> sv_directory sv = dirs j.
  Lemma act_own (dk dk' : disk) st st' k a : settled st -> (forall d m x, a = Create d m x -> d = dirs k) -> agree (dirs k) dk dk' -> st k = st' k ->
    agree (dirs k) (fst (act dk st k a)) (fst (act dk' st' k a)) /\ snd (act dk st k a) k = snd (act dk' st' k a) k.
  Proof.
    intros S C H E. unfold act. rewrite <- E.
    assert (X : forall r r' : res (disk * saver), alike (dirs k) r r' ->
      agree (dirs k) (fst (match r with Ok (dk, sv) => (dk, set_status st k (Running sv)) | Err e => (dk, set_status st k (Failed e)) end))
                     (fst (match r' with Ok (dk, sv) => (dk, set_status st' k (Running sv)) | Err e => (dk', set_status st' k (Failed e)) end)) /\
      snd (match r with Ok (dk, sv) => (dk, set_status st k (Running sv)) | Err e => (dk, set_status st k (Failed e)) end) k =
      snd (match r' with Ok (dk, sv) => (dk, set_status st' k (Running sv)) | Err e => (dk', set_status st' k (Failed e)) end) k).
    { intros r r' R. unfold alike in R. destruct r as [[a1 s1]|e1], r' as [[a2 s2]|e2]; try contradiction; cbn [fst snd]; unfold set_status; rewrite Nat.eqb_refl.
      - destruct R as [R ->]. now split.
      - subst e2. now split. }
    destruct a as [d m x|u].
    - specialize (C d m x eq_refl). subst d. destruct (st k) eqn:Q; try (cbn [fst snd]; split; [exact H|congruence]). apply X, create_alike; [apply D|exact H].
    - destruct (st k) as [|sv|e] eqn:Q; try (cbn [fst snd]; split; [exact H|congruence]). apply X. pose proof (S k sv Q) as Y. rewrite <- Y in H |- *. apply update_alike; [rewrite Y; apply D|exact H].
  Qed.
  Lemma act_other (dk : disk) st j k a : settled st -> (forall d m x, a = Create d m x -> d = dirs j) -> j <> k -> dirs j <> dirs k ->
    agree (dirs k) dk (fst (act dk st j a)) /\ snd (act dk st j a) k = st k.
  Proof.
    intros S C N Nd. unfold act, set_status.
    assert (T : agree (dirs k) dk dk) by (intros f F; reflexivity).
    assert (K : (k =? j)%nat = false) by (apply Nat.eqb_neq; auto).
    destruct a as [d m x|u].
    - specialize (C d m x eq_refl). subst d. destruct (st j) eqn:Q; try (now split). destruct (create dk (dirs j) m x) as [[dk1 sv]|e] eqn:E; cbn [fst snd]; rewrite K; split; auto.
      eapply create_other; [apply D|exact Nd|exact E].
    - destruct (st j) as [|sv|e] eqn:Q; try (now split). destruct (update_on dk sv u) as [[dk1 sv1]|e] eqn:E; cbn [fst snd]; rewrite K; split; auto.
      pose proof (S j sv Q) as Y. eapply update_other; [| | |exact E]; rewrite Y; try apply D. exact Nd.
  Qed.
  Lemma act_settled (dk : disk) st k a : settled st -> (forall d m x, a = Create d m x -> d = dirs k) -> settled (snd (act dk st k a)).
  Proof.
    intros S C j sv. unfold act, set_status. destruct a as [d m x|u].
    - specialize (C d m x eq_refl). subst d. destruct (st k) eqn:Q; cbn [snd]; try apply S. destruct (create dk (dirs k) m x) as [[dk1 sv1]|e] eqn:E; cbn [snd]; destruct (Nat.eqb_spec j k) as [->|N]; try apply S; try discriminate.
      intros F. injection F as <-. eapply create_directory. exact E.
    - destruct (st k) as [|sv0|e] eqn:Q; cbn [snd]; try apply S. destruct (update_on dk sv0 u) as [[dk1 sv1]|e] eqn:E; cbn [snd]; destruct (Nat.eqb_spec j k) as [->|N]; try apply S; try discriminate.
      intros F. injection F as <-. rewrite (update_directory _ _ _ _ _ E). now apply S.
  Qed.
  Lemma act_all_own k : (forall j, j <> k -> dirs j <> dirs k) -> forall l (dk dk' : disk) st st', (forall j d m x, In (j, Create d m x) l -> d = dirs j) -> settled st -> settled st' ->
    agree (dirs k) dk dk' -> st k = st' k ->
    agree (dirs k) (fst (act_all dk st l)) (fst (act_all dk' st' (map (pair k) (own k l)))) /\ snd (act_all dk st l) k = snd (act_all dk' st' (map (pair k) (own k l))) k.
  Proof.
    intros Dd. induction l as [|[j a] l IH]; intros dk dk' st st' C S S' H E; [now split|].
    assert (Ca : forall d m x, a = Create d m x -> d = dirs j) by (intros d m x ->; eapply C; now left).
    assert (Cl : forall j d m x, In (j, Create d m x) l -> d = dirs j) by (intros; eapply C; right; eassumption).
    cbn [act_all]. unfold own. cbn [filter fst]. destruct (Nat.eqb_spec j k) as [->|N].
    - cbn [map snd act_all]. destruct (act_own dk dk' st st' k a S Ca H E) as [H1 E1].
      pose proof (act_settled dk st k a S Ca) as S1. pose proof (act_settled dk' st' k a S' Ca) as S1'.
      destruct (act dk st k a) as [dk1 st1], (act dk' st' k a) as [dk1' st1']. apply IH; assumption.
    - destruct (act_other dk st j k a S Ca N (Dd j N)) as [H1 E1]. pose proof (act_settled dk st j a S Ca) as S1.
      destruct (act dk st j a) as [dk1 st1]. cbn [fst snd] in *. apply IH; try assumption; [|congruence].
      intros f F. rewrite <- H1 by exact F. now apply H.
  Qed.
End Frame.

(** ** What a process leaves in its directory *)
Section Alone.
  Context {A : Type}.
  Variable d : string.
  Hypotheses (P : proper d) (B : no_braces d).
  Notation data := (file_of d "data.csv"). Notation meta := (file_of d "metadata.csv").
  Definition stored (dk : disk A) (sv : saver A) (n : @npy_state A) (c : csv_state string string) : Prop :=
    sv_directory sv = d /\ sv_npy sv = n /\ on_disk dk data (sv_csv sv) = c /\ map fst (n_files n) = seq 0 (n_index n) /\
    forall i, dk (array_file d i) = match nth_error (map snd (n_files n)) i with Some rows => Array rows | None => Absent end.
  Lemma files_differ f g : no_slash f -> no_slash g -> f <> g -> String.eqb (file_of d f) (file_of d g) = false.
  Proof. intros F G N. apply String.eqb_neq. intros E. apply slash_split in E as [_ E]; auto. Qed.
  Lemma array_data i : String.eqb (array_file d i) data = false.
  Proof. apply files_differ; [apply array_no_slash|reflexivity|discriminate]. Qed.
  Lemma data_array i : String.eqb data (array_file d i) = false.
  Proof. apply files_differ; [reflexivity|apply array_no_slash|discriminate]. Qed.
  Lemma meta_array i : String.eqb meta (array_file d i) = false.
  Proof. apply files_differ; [reflexivity|apply array_no_slash|discriminate]. Qed.
  Lemma array_meta i : String.eqb (array_file d i) meta = false.
  Proof. apply files_differ; [apply array_no_slash|reflexivity|discriminate]. Qed.
  Lemma array_array i j : i <> j -> String.eqb (array_file d i) (array_file d j) = false.
  Proof. intros N. apply String.eqb_neq. intros E. apply array_file_inj in E. contradiction. Qed.

  Lemma stored_update dk sv n c u n' c' : stored dk sv n c -> saver_update (n, c) u = Ok (n', c') ->
    exists dk' sv', update_on dk sv u = Ok (dk', sv') /\ stored dk' sv' n' c' /\ dk' meta = dk meta.
  Proof.
    destruct u as [[x r] save]. intros (D1 & D2 & D3 & D4 & D5) E. unfold saver_update in E. cbn [fst snd] in E.
    change [Change 0 x; SendData 0; SendDump save] with ([Change 0 x; SendData 0] ++ [@SendDump A save]) in E. rewrite npy_run_app in E.
    unfold update_on. rewrite D1, D2. rewrite (csv_file d "data") by (auto; reflexivity). change ("data" ++ ".csv")%string with "data.csv"%string.
    assert (F : forall m, npy_run n [Change 0 x; SendData 0] = Ok m -> n_files m = n_files n /\ n_index m = n_index n /\ n_expects_dump m = true).
    { intros m. cbn. destruct (n_expects_dump n); [discriminate|]. cbn. intros Q. injection Q as <-. now cbn. }
    destruct (npy_run n [Change 0 x; SendData 0]) as [m|]; [|discriminate]. destruct (F m eq_refl) as (F1 & F2 & F3). clear F. cbn [rbind] in E |- *.
    cbn [npy_run] in E. destruct save.
    - rewrite array_path by assumption. cbn [rbind]. unfold npy_step in E |- *. rewrite F3 in E |- *. destruct (vstack (map (n_heap m) (n_buffer m))) as [rows|]; [|discriminate]. cbn [rbind] in E |- *.
      set (dk1 := put dk _ _).
      assert (T : on_disk dk1 data (sv_csv sv) = c).
      { rewrite <- D3. unfold on_disk, table_at, dk1, put. rewrite data_array. reflexivity. }
      rewrite T. destruct (csv_run c [SendRow r; SendCsvDump true]) as [c1|]; [|discriminate]. cbn [rbind] in E |- *. injection E as <- <-.
      eexists _, _. split; [reflexivity|]. split; [|unfold put, dk1, put; rewrite meta_array, files_differ; [reflexivity|reflexivity|reflexivity|discriminate]].
      unfold stored. cbn [sv_directory sv_npy sv_csv n_files n_index]. rewrite F1, F2. split; [reflexivity|]. split; [now rewrite ?F1, ?F2|]. split; [|split].
      + unfold on_disk, table_at, put. rewrite String.eqb_refl. destruct c1; reflexivity.
      + rewrite map_app, D4. cbn [map fst]. now rewrite <- seq_S.
      + intros i. unfold put. rewrite array_data. unfold dk1, put. rewrite map_app. cbn [map snd]. assert (L : List.length (map snd (n_files n)) = n_index n) by (rewrite map_length, <- (map_length fst), D4, seq_length; reflexivity).
        destruct (Nat.eq_dec i (n_index m)) as [->|N].
        * rewrite String.eqb_refl, F2, <- L, nth_error_app2, Nat.sub_diag by lia. reflexivity.
        * rewrite array_array by exact N. rewrite D5. rewrite F2 in N. destruct (Nat.lt_ge_cases i (List.length (map snd (n_files n)))) as [Q|Q].
          -- now rewrite nth_error_app1.
          -- rewrite nth_error_app2 by exact Q. rewrite (proj2 (nth_error_None _ _) Q). destruct (i - List.length (map snd (n_files n))) eqn:Z; [lia|]. cbn. now destruct n0.
    - cbn [rbind]. unfold npy_step in E |- *. rewrite F3 in E |- *. cbn [rbind] in E |- *. rewrite D3. destruct (csv_run c [SendRow r; SendCsvDump false]) as [c1|] eqn:C1; [|discriminate]. cbn [rbind] in E |- *. injection E as <- <-.
      eexists _, _. split; [reflexivity|]. split; [|reflexivity]. unfold stored. cbn [sv_directory sv_npy sv_csv n_files n_index]. rewrite F1, F2. repeat split; auto.
      assert (Fc : c_file c1 = c_file c).
      { cbn in C1. destruct (c_expects_dump c); [discriminate|]. cbn in C1. injection C1 as <-. reflexivity. }
      rewrite <- D3 in Fc. cbn [on_disk c_file] in Fc. unfold on_disk. rewrite <- Fc. now destruct c1.
  Qed.
  Lemma stored_updates k : forall us dk st sv n c n' c', stored dk sv n c -> st k = Running sv -> saver_run (n, c) us = Ok (n', c') ->
    exists sv', stored (fst (act_all dk st (map (pair k) (map Update us)))) sv' n' c' /\ snd (act_all dk st (map (pair k) (map Update us))) k = Running sv' /\
      fst (act_all dk st (map (pair k) (map Update us))) meta = dk meta.
  Proof.
    induction us as [|u us IH]; intros dk st sv n c n' c' S R E.
    - cbn in E. injection E as <- <-. exists sv. now split.
    - cbn [saver_run] in E. destruct (saver_update (n, c) u) as [[n1 c1]|] eqn:E1; [|discriminate]. cbn [rbind] in E.
      destruct (stored_update _ _ _ _ _ _ _ S E1) as (dk1 & sv1 & U & S1 & M1). cbn [map act_all]. unfold act. rewrite R, U.
      destruct (IH dk1 (set_status st k (Running sv1)) sv1 n1 c1 n' c' S1) as (sv' & H1 & H2 & H3); [unfold set_status; now rewrite Nat.eqb_refl|exact E|].
      exists sv'. split; [exact H1|]. split; [exact H2|]. now rewrite H3.
  Qed.
  Lemma stored_all k m x us (dk : disk A) st n c : (forall f, dk (file_of d f) = Absent) -> st k = Idle -> saver_run (saver_start x) us = Ok (n, c) ->
    let dk' := fst (act_all dk st (map (pair k) (Create d m x :: map Update us))) in
    dk' meta = Table [Names (map fst m); Values (map snd m)] /\ table_at dk' data = c_file c /\
    forall i, dk' (array_file d i) = match nth_error (map snd (n_files n)) i with Some rows => Array rows | None => Absent end.
  Proof.
    intros F I E dk'. unfold dk'. clear dk'. cbn [map act_all]. unfold act. rewrite I. unfold create. rewrite (csv_file d "metadata") by (auto; reflexivity). change ("metadata" ++ ".csv")%string with "metadata.csv"%string.
    unfold table_at. rewrite F. cbn [csv_start csv_run csv_step c_expects_dump c_header c_file c_buffer rbind app].
    set (dk1 := put dk _ _). set (sv := Saver d _ _). unfold saver_start in E.
    destruct (stored_updates k us dk1 (set_status st k (Running sv)) sv (npy_start (fun _ => x)) (csv_start []) n c) as (sv' & S & _ & M).
    - unfold stored, sv. cbn [sv_directory sv_npy sv_csv]. repeat split.
      + unfold on_disk, table_at, dk1, put. rewrite files_differ by (try reflexivity; discriminate). rewrite F. reflexivity.
      + intros i. unfold dk1, put. rewrite array_meta. cbn [npy_start n_files map]. unfold array_file. rewrite F. now destruct i.
    - unfold set_status. now rewrite Nat.eqb_refl.
    - exact E.
    - destruct S as (_ & _ & S3 & _ & S5). split; [|split].
      + rewrite M. unfold dk1, put. now rewrite String.eqb_refl.
      + rewrite <- S3. reflexivity.
      + exact S5.
  Qed.
End Alone.

(** ** Braces *)
Fixpoint braces (s : string) : nat :=
  match s with EmptyString => 0 | String c s => (if (Ascii.eqb c "{" || Ascii.eqb c "}")%bool then 1 else 0) + braces s end.
Fixpoint drop (k : nat) (s : string) : string := match k, s with S k, String _ s => drop k s | _, _ => s end.
Lemma braces_app s t : braces (s ++ t)%string = braces s + braces t.
Proof. induction s as [|c s IH]; cbn; [reflexivity|]. rewrite IH. lia. Qed.
Lemma braces_digits s : (forall c, has_char c s = true -> has_char c digits = true) -> braces s = 0.
Proof.
  induction s as [|c s IH]; intros H; [reflexivity|]. cbn [braces]. rewrite IH by (intros e E; apply H; cbn; now rewrite E, orb_true_r).
  specialize (H c). cbn [has_char] in H. rewrite Ascii.eqb_refl in H. specialize (H eq_refl).
  destruct (Ascii.eqb_spec c "{") as [->|_]; [discriminate|]. destruct (Ascii.eqb_spec c "}") as [->|_]; [discriminate|]. reflexivity.
Qed.
Lemma no_braces_iff s : braces s = 0 <-> no_braces s.
Proof.
  unfold no_braces. induction s as [|c s IH]; cbn [braces has_char]; [easy|]. rewrite (Ascii.eqb_sym "{" c), (Ascii.eqb_sym "}" c).
  destruct (Ascii.eqb c "{"), (Ascii.eqb c "}"); cbn [orb]; (split; [intros H; try lia; apply IH; lia|intros [H K]; try discriminate; rewrite (proj2 IH); auto]).
Qed.
Lemma braces_str i : braces (str_nat i) = 0.
Proof. apply braces_digits. intros c. apply str_nat_digits. Qed.
Lemma braces_drop k : forall s, braces (drop k s) <= braces s.
Proof. induction k as [|k IH]; intros [|c s]; cbn; try lia. specialize (IH s). lia. Qed.
Notation tail := "/agents_{index}.npy"%string.
Lemma prefix_short : forall p s, no_slash p -> String.prefix p (s ++ tail) = true -> String.length p <= String.length s.
Proof.
  unfold no_slash. induction p as [|c p IH]; intros s N H; [cbn; lia|]. cbn [has_char] in N. apply orb_false_iff in N as [N1 N2]. apply Ascii.eqb_neq in N1. destruct s as [|c' s].
  - exfalso. cbn [append String.prefix] in H. destruct (ascii_dec c "/") as [->|]; [contradiction|discriminate].
  - cbn [append String.prefix] in H. destruct (ascii_dec c c'); [|discriminate]. cbn [String.length]. specialize (IH s N2 H). lia.
Qed.
Lemma format_braces i : forall s k r, k <= String.length s -> format_index i k (s ++ tail) = Ok r -> 2 * braces r <= braces (drop k s).
Proof.
  induction s as [|c s IH]; intros k r L E.
  - cbn in L. assert (k = 0) as -> by lia. cbn -[str_nat] in E. injection E as <-. cbn [append braces Ascii.eqb]. rewrite braces_app, braces_str. reflexivity.
  - cbn [append format_index] in E. destruct k as [|k].
    + cbn [drop braces]. destruct (Ascii.eqb_spec c "{") as [->|N].
      * cbn [orb]. destruct (startswith (s ++ tail) "{") eqn:S1.
        { destruct s as [|c' s]; [discriminate|]. unfold startswith in S1. cbn [append String.prefix] in S1. destruct (ascii_dec "{" c') as [<-|]; [|discriminate].
          destruct (format_index i 1 (String "{" s ++ tail)) as [r'|] eqn:Q; [|discriminate]. cbn [rbind] in E. injection E as <-. apply IH in Q; [|cbn; lia].
          cbn [drop] in Q. cbn [braces Ascii.eqb orb]. cbn. destruct s; cbn in *; lia. }
        destruct (startswith (s ++ tail) "index}") eqn:S2; [|discriminate].
        assert (L6 : 6 <= String.length s).
        { apply (prefix_short "index}"%string s); [reflexivity|exact S2]. }
        destruct (format_index i 6 (s ++ tail)) as [r'|] eqn:Q; [|discriminate]. cbn [rbind] in E. injection E as <-. apply IH in Q; [|exact L6].
        rewrite braces_app, braces_str. pose proof (braces_drop 6 s). lia.
      * cbn [orb]. destruct (Ascii.eqb_spec c "}") as [->|M].
        { destruct (startswith (s ++ tail) "}") eqn:S1; [|discriminate]. destruct s as [|c' s]; [discriminate|]. unfold startswith in S1. cbn [append String.prefix] in S1. destruct (ascii_dec "}" c') as [<-|]; [|discriminate].
          destruct (format_index i 1 (String "}" s ++ tail)) as [r'|] eqn:Q; [|discriminate]. cbn [rbind] in E. injection E as <-. apply IH in Q; [|cbn; lia].
          cbn in *. destruct s; cbn in *; lia. }
        destruct (format_index i 0 (s ++ tail)) as [r'|] eqn:Q; [|discriminate]. cbn [rbind] in E. injection E as <-. apply IH in Q; [|lia]. cbn [drop] in Q.
        cbn [braces]. apply Ascii.eqb_neq in N, M. rewrite N, M. cbn. destruct s; cbn in *; lia.
    + apply IH in E; [exact E|cbn in L; lia].
Qed.
Lemma braces_break d i : proper d -> ~ no_braces d -> npy_path d "agents" i <> Ok (array_file d i).
Proof.
  intros P N E. apply N. apply no_braces_iff. unfold npy_path in E. rewrite join_file in E; [|exact P|reflexivity]. unfold file_of in E.
  change ("/" ++ "agents" ++ "_{index}.npy")%string with tail in E. apply format_braces in E; [|lia].
  unfold array_file, file_of in E. rewrite !braces_app, braces_str in E. cbn in E. destruct d; cbn in *; lia.
Qed.

(** *** Paths in normal form *)
Lemma split_part p : no_slash p -> forall cur, split_slash cur p = [(cur ++ p)%string].
Proof.
  unfold no_slash. induction p as [|c p IH]; intros N cur; cbn; [now rewrite app_empty_r|]. cbn [has_char] in N. apply orb_false_iff in N as [N1 N2].
  apply Ascii.eqb_neq in N1. destruct (Ascii.eqb_spec c "/") as [-> | _]; [contradiction|]. rewrite IH by exact N2. f_equal. now rewrite string_app_assoc.
Qed.
Lemma split_more p s : no_slash p -> forall cur, split_slash cur (p ++ String "/" s) = (cur ++ p)%string :: split_slash "" s.
Proof.
  unfold no_slash. induction p as [|c p IH]; intros N cur; cbn; [now rewrite app_empty_r|]. cbn [has_char] in N. apply orb_false_iff in N as [N1 N2].
  apply Ascii.eqb_neq in N1. destruct (Ascii.eqb_spec c "/") as [-> | _]; [contradiction|]. rewrite IH by exact N2. f_equal. now rewrite string_app_assoc.
Qed.
Lemma split_path ps : forall p, (forall q, In q (p :: ps) -> clean_part q) -> split_slash "" (String.concat "/" (p :: ps)) = p :: ps.
Proof.
  induction ps as [|r ps IH]; intros p H.
  - cbn. rewrite split_part; [reflexivity|]. apply (H p). now left.
  - change (String.concat "/" (p :: r :: ps)) with (p ++ String "/" (String.concat "/" (r :: ps)))%string. rewrite split_more by (apply (H p); now left).
    cbn [append]. f_equal. apply IH. intros q I. apply H. now right.
Qed.
Lemma norm_clean a ps : (forall q, In q ps -> clean_part q) -> forall done, norm_parts a done ps = rev done ++ ps.
Proof.
  induction ps as [|p ps IH]; intros H done; cbn [norm_parts]; [now rewrite app_nil_r|].
  destruct (H p (or_introl eq_refl)) as (_ & A & B & C). apply String.eqb_neq in A, B, C. rewrite A, B, C. cbn [orb].
  rewrite IH by (intros q I; apply H; now right). cbn [rev]. now rewrite <- app_assoc.
Qed.
Lemma norm_empty a done ps : norm_parts a done (""%string :: ps) = norm_parts a done ps.
Proof. reflexivity. Qed.
Lemma clean_start p ps : (forall q, In q (p :: ps) -> clean_part q) -> exists c s, String.concat "/" (p :: ps) = String c s /\ c <> "/"%char.
Proof.
  intros H. destruct (H p (or_introl eq_refl)) as (N & A & _). destruct p as [|c p]; [contradiction|]. exists c.
  assert (C : c <> "/"%char). { unfold no_slash in N. cbn [has_char] in N. apply orb_false_iff in N as [N _]. apply Ascii.eqb_neq in N. congruence. }
  destruct ps; eexists; split; try exact C; reflexivity.
Qed.
Lemma clean_normpath p ps : (forall q, In q (p :: ps) -> clean_part q) ->
  let path := String.concat "/" (p :: ps) in
  normpath path = path /\ normpath ("/" ++ path) = ("/" ++ path)%string /\ normpath ("//" ++ path) = ("//" ++ path)%string /\
  forall k, normpath ("///" ++ slashes k ++ path) = ("/" ++ path)%string.
Proof.
  intros H path. destruct (clean_start p ps H) as (c & s & E & C). fold path in E.
  assert (S : split_slash "" path = p :: ps) by now apply split_path.
  assert (N : forall a, norm_parts a [] (p :: ps) = p :: ps) by (intros a; now rewrite norm_clean).
  assert (X : forall t, startswith (String c t) "/" = false) by (intros t; unfold startswith; cbn [String.prefix]; destruct (ascii_dec "/" c); [subst; contradiction|reflexivity]).
  assert (Y : forall t u, startswith (String c t) (String "/" u) = false) by (intros t u; unfold startswith; cbn [String.prefix]; destruct (ascii_dec "/" c); [subst; contradiction|reflexivity]).
  repeat match goal with |- _ /\ _ => split end.
  - unfold normpath. rewrite S, N. rewrite E, !Y. cbn [andb]. fold path. rewrite E. reflexivity.
  - unfold normpath. cbn [append split_slash]. change (Ascii.eqb "/" "/") with true. cbn iota. rewrite S, norm_empty, N. fold path.
    replace (startswith (String "/" path) "//") with false by (rewrite E; unfold startswith; cbn [String.prefix]; destruct (ascii_dec "/" "/"); [|reflexivity]; destruct (ascii_dec "/" c); [subst; contradiction|reflexivity]).
    replace (startswith (String "/" path) "/") with true by (unfold startswith; cbn [String.prefix]; destruct path; reflexivity). reflexivity.
  - unfold normpath. cbn [append split_slash]. change (Ascii.eqb "/" "/") with true. cbn iota. rewrite S, !norm_empty, N. fold path.
    replace (startswith (String "/" (String "/" path)) "//") with true by (unfold startswith; cbn [String.prefix]; destruct path; reflexivity).
    replace (startswith (String "/" (String "/" path)) "///") with false by (rewrite E; unfold startswith; cbn [String.prefix]; destruct (ascii_dec "/" "/"); [|reflexivity]; destruct (ascii_dec "/" c); [subst; contradiction|reflexivity]).
    reflexivity.
  - intros k. unfold normpath. cbn [append split_slash]. change (Ascii.eqb "/" "/") with true. cbn iota. rewrite !norm_empty.
    assert (K : norm_parts true [] (split_slash "" (slashes k ++ path)) = p :: ps).
    { induction k as [|k IH]; [cbn [slashes append]; now rewrite S, N|]. cbn [slashes append split_slash]. change (Ascii.eqb "/" "/") with true. cbn iota. rewrite norm_empty. exact IH. }
    set (t := (slashes k ++ path)%string) in *.
    replace (startswith (String "/" (String "/" (String "/" t))) "//") with true by reflexivity.
    replace (startswith (String "/" (String "/" (String "/" t))) "///") with true by (unfold startswith; cbn; destruct t; reflexivity).
    replace (startswith (String "/" (String "/" (String "/" t))) "/") with true by reflexivity.
    cbn [andb negb]. rewrite K. reflexivity.
Qed.
