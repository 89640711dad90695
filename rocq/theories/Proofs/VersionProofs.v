(** * Proofs about versions *)
From Coq Require Import String Ascii Lia Permutation.
From Verif Require Import Model.Base Model.Storage Model.Version Spec.Versions Spec.Records Proofs.StorageProofs Proofs.PlaceProofs.
Import StringSyntax.
Open Scope list_scope.

(** ** Texts *)
Lemma has_char_in c d s : has_char c (String d s) = true <-> c = d \/ has_char c s = true.
Proof. cbn [has_char]. rewrite Bool.orb_true_iff, Ascii.eqb_eq. reflexivity. Qed.
Lemma blanks_iff c : has_char c blanks = true <-> blank c.
Proof.
  assert (E : has_char c blanks = (((9 <=? nat_of_ascii c) && (nat_of_ascii c <=? 13)) || ((28 <=? nat_of_ascii c) && (nat_of_ascii c <=? 32)))%bool).
  { destruct c as [b0 b1 b2 b3 b4 b5 b6 b7]. destruct b0, b1, b2, b3, b4, b5, b6, b7; reflexivity. }
  unfold blank. rewrite E, Bool.orb_true_iff, !Bool.andb_true_iff, !Nat.leb_le. reflexivity.
Qed.
Lemma lstrip_first chars c s : has_char c chars = false -> lstrip chars (String c s) = String c s.
Proof. intros H. cbn [lstrip]. now rewrite H. Qed.
Lemma rstrip_last chars c : forall s, has_char c chars = false -> rstrip chars (s ++ String c "")%string = (s ++ String c "")%string.
Proof.
  induction s as [|d s IH]; intros H; cbn [String.append rstrip]; [now rewrite H|].
  rewrite IH by exact H. destruct s; reflexivity.
Qed.
Lemma last_form : forall s, s = ""%string \/ exists t c, s = (t ++ String c "")%string.
Proof.
  induction s as [|d s [-> | (t & c & ->)]]; [now left|right; now exists EmptyString, d|right; now exists (String d t), c].
Qed.
Lemma strip_trimmed s : trimmed s -> strip s = s.
Proof.
  intros [A B]. unfold strip, strip_chars. destruct s as [|c s]; [reflexivity|].
  rewrite lstrip_first. 2:{ apply not_true_is_false. rewrite blanks_iff. exact (A c s eq_refl). }
  destruct (last_form (String c s)) as [E|(t & d & E)]; [discriminate|]. rewrite E. apply rstrip_last.
  apply not_true_is_false. rewrite blanks_iff. exact (B d t E).
Qed.
Lemma no_blank_trimmed s : no_blank s -> trimmed s.
Proof.
  intros N. split; intros c t ->; apply N.
  - apply has_char_in. now left.
  - rewrite has_char_app. apply Bool.orb_true_intro. right. apply has_char_in. now left.
Qed.
Lemma strip_no_blank s : no_blank s -> strip s = s.
Proof. intros H. now apply strip_trimmed, no_blank_trimmed. Qed.
Lemma no_blank_app s t : no_blank s -> no_blank t -> no_blank (s ++ t)%string.
Proof. intros A B c. rewrite has_char_app, Bool.orb_true_iff. intros [H|H]; auto. Qed.
Lemma chars_blank chars s : (forall c, has_char c chars = true -> ~ blank c) -> (forall c, has_char c s = true -> has_char c chars = true) -> no_blank s.
Proof. intros A B c H. apply A, B, H. Qed.
Lemma known_blank s : forallb (fun c => negb (has_char c blanks)) (list_ascii_of_string s) = true -> no_blank s.
Proof.
  induction s as [|d s IH]; [discriminate|]. cbn [list_ascii_of_string forallb]. intros H c I. apply andb_prop in H as [H1 H2].
  apply has_char_in in I as [-> | I]; [|now apply IH]. rewrite <- blanks_iff. now destruct (has_char d blanks).
Qed.
Lemma hexadecimal_blank s : hexadecimal s -> no_blank s.
Proof. apply chars_blank. apply (known_blank "0123456789abcdef"). reflexivity. Qed.
Lemma digits_blank n : no_blank (str_nat n).
Proof. apply (chars_blank digits); [apply (known_blank digits); reflexivity|apply str_nat_digits]. Qed.
Lemma str_nat_lacks c n : has_char c digits = false -> has_char c (str_nat n) = false.
Proof. intros H. apply not_true_is_false. intros I. apply str_nat_digits in I. congruence. Qed.
Lemma hexadecimal_lacks c s : has_char c "0123456789abcdef" = false -> hexadecimal s -> has_char c s = false.
Proof. intros H X. apply not_true_is_false. intros I. apply X in I. congruence. Qed.
Lemma all_in_iff chars s : all_in chars s = true <-> forall c, has_char c s = true -> has_char c chars = true.
Proof.
  induction s as [|d s IH]; cbn [all_in]; [split; [discriminate|reflexivity]|]. rewrite Bool.andb_true_iff, IH. split.
  - intros [A B] c H. apply has_char_in in H as [-> | H]; auto.
  - intros H. split; [apply H, has_char_in; now left|]. intros c I. apply H, has_char_in. now right.
Qed.

Lemma last_split_none c : forall s, has_char c s = false -> last_split c s = None.
Proof.
  induction s as [|d s IH]; [reflexivity|]. cbn [has_char last_split]. intros H. apply Bool.orb_false_elim in H as [A B].
  rewrite (IH B). rewrite Ascii.eqb_sym, A. reflexivity.
Qed.
Lemma last_split_app c b : has_char c b = false -> forall a, last_split c (a ++ String c b)%string = Some (a, b).
Proof.
  intros H. induction a as [|d a IH]; cbn [String.append last_split].
  - rewrite (last_split_none c b H), Ascii.eqb_refl. reflexivity.
  - now rewrite IH.
Qed.
Lemma take_app : forall a b, take (String.length a) (a ++ b)%string = a.
Proof. induction a as [|c a IH]; intros b; [now destruct b|]. cbn [String.length String.append take]. now rewrite IH. Qed.
Lemma take_all : forall n s, String.length s <= n -> take n s = s.
Proof.
  induction n as [|n IH]; intros [|c s] H; cbn [take String.length] in *; try reflexivity; [lia|]. rewrite IH by lia. reflexivity.
Qed.
Lemma skip_app : forall a b, skip (String.length a) (a ++ b)%string = b.
Proof. induction a as [|c a IH]; intros b; [now destruct b|]. exact (IH b). Qed.
Lemma length_app : forall a b, String.length (a ++ b)%string = String.length a + String.length b.
Proof. induction a as [|c a IH]; intros b; [reflexivity|]. cbn [String.append String.length]. now rewrite IH. Qed.
Lemma prefix_empty s : startswith s "" = true.
Proof. now destruct s. Qed.
Lemma endswith_form : forall s t, endswith s t = true -> exists p, s = (p ++ t)%string.
Proof.
  induction s as [|c s IH]; intros t; cbn [endswith]; rewrite Bool.orb_true_iff; intros [H|H].
  - apply String.eqb_eq in H. subst t. now exists EmptyString.
  - discriminate.
  - apply String.eqb_eq in H. subst t. now exists EmptyString.
  - destruct (IH t H) as [p ->]. now exists (String c p).
Qed.
Lemma first_split c : forall a b s t, has_char c a = false -> has_char c b = false -> (a ++ String c s)%string = (b ++ String c t)%string -> a = b /\ s = t.
Proof.
  induction a as [|d a IH]; intros [|e b] s t A B E; cbn [String.append] in E; apply cons_inj in E as [E1 E2].
  - now split.
  - subst e. cbn [has_char] in B. rewrite Ascii.eqb_refl in B. discriminate.
  - subst d. cbn [has_char] in A. rewrite Ascii.eqb_refl in A. discriminate.
  - subst e. cbn [has_char] in A, B. apply Bool.orb_false_elim in A as [_ A]. apply Bool.orb_false_elim in B as [_ B].
    destruct (IH b s t A B E2) as [-> ->]. now split.
Qed.
Lemma append_cons a c s : (a ++ String c s)%string = ((a ++ String c "") ++ s)%string.
Proof. now rewrite string_app_assoc. Qed.

(** ** Checkouts *)
Lemma not_dirty a hex : hexadecimal hex -> endswith (a ++ "-g" ++ hex)%string "-dirty" = false.
Proof.
  intros H. apply not_true_is_false. intros E. apply endswith_form in E as [p E].
  assert (X : last_split "-" (a ++ String "-" (String "g" hex))%string = Some (a, String "g" hex)).
  { apply last_split_app. cbn [has_char]. rewrite (hexadecimal_lacks "-" hex eq_refl H). reflexivity. }
  assert (Y : last_split "-" (p ++ String "-" "dirty")%string = Some (p, "dirty"%string)) by (apply last_split_app; reflexivity).
  change ("-g" ++ hex)%string with (String "-" (String "g" hex)) in E. rewrite E in X. change "-dirty"%string with (String "-" "dirty") in X. rewrite Y in X.
  assert (Z : "dirty"%string = String "g" hex) by congruence. apply cons_inj in Z as [Z _]. discriminate.
Qed.
Lemma describe_matches tag n hex : tag <> ""%string -> hexadecimal hex -> hex <> ""%string ->
  describe_match (tag ++ "-" ++ str_nat n ++ "-g" ++ hex)%string = Some (tag, str_nat n, hex).
Proof.
  intros T X H. unfold describe_match.
  replace (tag ++ "-" ++ str_nat n ++ "-g" ++ hex)%string with ((tag ++ String "-" (str_nat n)) ++ String "-" (String "g" hex))%string by (rewrite string_app_assoc; reflexivity).
  rewrite last_split_app. 2:{ cbn [has_char]. rewrite (hexadecimal_lacks "-" hex eq_refl X). reflexivity. }
  rewrite Ascii.eqb_refl. apply String.eqb_neq in H. rewrite H. assert (Y : all_in hex_chars hex = true) by (apply all_in_iff; exact X). rewrite Y. cbn [negb andb].
  rewrite last_split_app by (apply str_nat_lacks; reflexivity).
  apply String.eqb_neq in T. rewrite T. assert (Z : all_in digit_chars (str_nat n) = true) by (apply all_in_iff; apply str_nat_digits). rewrite Z.
  destruct (str_nat_cons n) as (c & s & E). rewrite E. reflexivity.
Qed.
Definition iso (git_time : string) : string := iso_date git_time.
Lemma tagged_pieces git tag n hex dirty full date : tagged git tag n hex dirty full date ->
  git_pieces_from_vcs git "" = Ok (Some (Pieces full hex dirty false (Some tag) n (Some (iso date)))).
Proof.
  intros [[d D] De He Da [T1 T2] [X1 X2] F]. unfold git_pieces_from_vcs. cbn [String.append]. rewrite D, De, He, Da.
  assert (S1 : strip (describe_text tag n hex dirty) = describe_text tag n hex dirty).
  { apply strip_no_blank. unfold describe_text. repeat apply no_blank_app; auto using hexadecimal_blank, digits_blank; try (apply known_blank; reflexivity).
    destruct dirty; apply known_blank; reflexivity. }
  rewrite S1, (strip_no_blank full (hexadecimal_blank full F)).
  set (core := (tag ++ "-" ++ str_nat n ++ "-g" ++ hex)%string).
  assert (C : has_char "-" core = true) by (unfold core; rewrite has_char_app; apply Bool.orb_true_intro; right; reflexivity).
  assert (M : describe_match core = Some (tag, str_nat n, hex)) by (now apply describe_matches).
  assert (G : endswith (describe_text tag n hex dirty) "-dirty" = dirty /\ (if dirty then take (String.length (describe_text tag n hex dirty) - 6) (describe_text tag n hex dirty) else describe_text tag n hex dirty) = core).
  { destruct dirty.
    - assert (E : describe_text tag n hex true = (core ++ "-dirty")%string) by (unfold describe_text, core; rewrite !string_app_assoc; reflexivity).
      rewrite E. split; [apply endswith_app|]. rewrite length_app. change (String.length "-dirty") with 6. rewrite PeanoNat.Nat.add_sub. apply take_app.
    - assert (E : describe_text tag n hex false = core) by (unfold describe_text, core; now rewrite app_empty_r).
      rewrite E. split; [|reflexivity]. unfold core. rewrite <- (string_app_assoc "-"), <- string_app_assoc. apply not_dirty, X1. }
  destruct G as [G1 G2]. rewrite G1, G2, C, M, prefix_empty, parse_str. cbn [rbind]. now destruct tag.
Qed.
Lemma untagged_pieces git n hex dirty full date : untagged git n hex dirty full date ->
  git_pieces_from_vcs git "" = Ok (Some (Pieces full (take 7 full) dirty false None n (Some (iso date)))).
Proof.
  intros [[d D] De He Co Da [X1 X2] F]. unfold git_pieces_from_vcs. cbn [String.append]. rewrite D, De, He, Co, Da.
  assert (S1 : strip (hex ++ (if dirty then "-dirty" else "")) = (hex ++ (if dirty then "-dirty" else ""))%string).
  { apply strip_no_blank. apply no_blank_app; auto using hexadecimal_blank. destruct dirty; apply known_blank; reflexivity. }
  rewrite S1, (strip_no_blank full (hexadecimal_blank full F)), (strip_no_blank _ (digits_blank n)), parse_str.
  assert (C : has_char "-" hex = false) by (now apply hexadecimal_lacks).
  assert (G : endswith (hex ++ (if dirty then "-dirty" else "")) "-dirty" = dirty /\
    (if dirty then take (String.length (hex ++ (if dirty then "-dirty" else "")) - 6) (hex ++ (if dirty then "-dirty" else "")) else (hex ++ (if dirty then "-dirty" else "")))%string = hex).
  { destruct dirty.
    - split; [apply endswith_app|]. rewrite length_app. change (String.length "-dirty") with 6. rewrite PeanoNat.Nat.add_sub. apply take_app.
    - rewrite app_empty_r. split; [|reflexivity]. apply not_true_is_false. intros E. apply endswith_form in E as [p E]. rewrite E, has_char_app in C. cbn in C. rewrite Bool.orb_true_r in C. discriminate. }
  destruct G as [G1 G2]. rewrite G1, G2, C. reflexivity.
Qed.
Fixpoint string_list_eqb (a b : list string) : bool :=
  match a, b with [], [] => true | x :: a, y :: b => (String.eqb x y && string_list_eqb a b)%bool | _, _ => false end.
Lemma string_list_eqb_spec a b : reflect (a = b) (string_list_eqb a b).
Proof.
  revert b. induction a as [|x a IH]; intros [|y b]; cbn [string_list_eqb]; try (constructor; congruence). destruct (String.eqb_spec x y) as [->|]; [|constructor; congruence].
  destruct (IH b) as [->|]; constructor; congruence.
Qed.
Lemma fails_at cmd git broken : fails_only cmd git broken -> forall c, broken c = if string_list_eqb c cmd then None else git c.
Proof. intros [H1 H2] c. destruct (string_list_eqb_spec c cmd) as [->|N]; auto. Qed.
Lemma count_fails git broken n hex dirty full date : untagged git n hex dirty full date -> (forall c, broken c = if string_list_eqb c ["rev-list"; "HEAD"; "--count"]%string then None else git c) ->
  git_pieces_from_vcs broken "" = Err TypeError.
Proof.
  intros [[d D] De He Co Da [X1 X2] F] B. unfold git_pieces_from_vcs. cbn [String.append]. rewrite !B. cbn [string_list_eqb String.eqb Ascii.eqb Bool.eqb andb]. rewrite D, De, He.
  assert (S1 : strip (hex ++ (if dirty then "-dirty" else "")) = (hex ++ (if dirty then "-dirty" else ""))%string).
  { apply strip_no_blank. apply no_blank_app; auto using hexadecimal_blank. destruct dirty; apply known_blank; reflexivity. }
  rewrite S1, (strip_no_blank full (hexadecimal_blank full F)).
  assert (C : has_char "-" hex = false) by (now apply hexadecimal_lacks).
  assert (G : endswith (hex ++ (if dirty then "-dirty" else "")) "-dirty" = dirty /\
    (if dirty then take (String.length (hex ++ (if dirty then "-dirty" else "")) - 6) (hex ++ (if dirty then "-dirty" else "")) else (hex ++ (if dirty then "-dirty" else "")))%string = hex).
  { destruct dirty.
    - split; [apply endswith_app|]. rewrite length_app. change (String.length "-dirty") with 6. rewrite PeanoNat.Nat.add_sub. apply take_app.
    - rewrite app_empty_r. split; [|reflexivity]. apply not_true_is_false. intros E. apply endswith_form in E as [p E]. rewrite E, has_char_app in C. cbn in C. rewrite Bool.orb_true_r in C. discriminate. }
  destruct G as [G1 G2]. rewrite G1, G2, C. reflexivity.
Qed.
Lemma date_fails_untagged git broken n hex dirty full date : untagged git n hex dirty full date -> (forall c, broken c = if string_list_eqb c ["show"; "-s"; "--format=%ci"; "HEAD"]%string then None else git c) ->
  git_pieces_from_vcs broken "" = Err AttributeError.
Proof.
  intros [[d D] De He Co Da [X1 X2] F] B. unfold git_pieces_from_vcs. cbn [String.append]. rewrite !B. cbn [string_list_eqb String.eqb Ascii.eqb Bool.eqb andb]. rewrite D, De, He, Co.
  assert (S1 : strip (hex ++ (if dirty then "-dirty" else "")) = (hex ++ (if dirty then "-dirty" else ""))%string).
  { apply strip_no_blank. apply no_blank_app; auto using hexadecimal_blank. destruct dirty; apply known_blank; reflexivity. }
  rewrite S1, (strip_no_blank full (hexadecimal_blank full F)), (strip_no_blank _ (digits_blank n)), parse_str.
  assert (C : has_char "-" hex = false) by (now apply hexadecimal_lacks).
  assert (G : endswith (hex ++ (if dirty then "-dirty" else "")) "-dirty" = dirty /\
    (if dirty then take (String.length (hex ++ (if dirty then "-dirty" else "")) - 6) (hex ++ (if dirty then "-dirty" else "")) else (hex ++ (if dirty then "-dirty" else "")))%string = hex).
  { destruct dirty.
    - split; [apply endswith_app|]. rewrite length_app. change (String.length "-dirty") with 6. rewrite PeanoNat.Nat.add_sub. apply take_app.
    - rewrite app_empty_r. split; [|reflexivity]. apply not_true_is_false. intros E. apply endswith_form in E as [p E]. rewrite E, has_char_app in C. cbn in C. rewrite Bool.orb_true_r in C. discriminate. }
  destruct G as [G1 G2]. rewrite G1, G2, C. reflexivity.
Qed.
Lemma date_fails_tagged git broken tag n hex dirty full date : tagged git tag n hex dirty full date -> (forall c, broken c = if string_list_eqb c ["show"; "-s"; "--format=%ci"; "HEAD"]%string then None else git c) ->
  git_pieces_from_vcs broken "" = Err AttributeError.
Proof.
  intros [[d D] De He Da [T1 T2] [X1 X2] F] B. unfold git_pieces_from_vcs. cbn [String.append]. rewrite !B. cbn [string_list_eqb String.eqb Ascii.eqb Bool.eqb andb]. rewrite D, De, He.
  assert (S1 : strip (describe_text tag n hex dirty) = describe_text tag n hex dirty).
  { apply strip_no_blank. unfold describe_text. repeat apply no_blank_app; auto using hexadecimal_blank, digits_blank; try (apply known_blank; reflexivity).
    destruct dirty; apply known_blank; reflexivity. }
  rewrite S1, (strip_no_blank full (hexadecimal_blank full F)).
  set (core := (tag ++ "-" ++ str_nat n ++ "-g" ++ hex)%string).
  assert (C : has_char "-" core = true) by (unfold core; rewrite has_char_app; apply Bool.orb_true_intro; right; reflexivity).
  assert (M : describe_match core = Some (tag, str_nat n, hex)) by (now apply describe_matches).
  assert (G : endswith (describe_text tag n hex dirty) "-dirty" = dirty /\ (if dirty then take (String.length (describe_text tag n hex dirty) - 6) (describe_text tag n hex dirty) else describe_text tag n hex dirty) = core).
  { destruct dirty.
    - assert (E : describe_text tag n hex true = (core ++ "-dirty")%string) by (unfold describe_text, core; rewrite !string_app_assoc; reflexivity).
      rewrite E. split; [apply endswith_app|]. rewrite length_app. change (String.length "-dirty") with 6. rewrite PeanoNat.Nat.add_sub. apply take_app.
    - assert (E : describe_text tag n hex false = core) by (unfold describe_text, core; now rewrite app_empty_r).
      rewrite E. split; [|reflexivity]. unfold core. rewrite <- (string_app_assoc "-"), <- string_app_assoc. apply not_dirty, X1. }
  destruct G as [G1 G2]. rewrite G1, G2, C, M, prefix_empty, parse_str. cbn [rbind]. now destruct tag.
Qed.
Lemma render_checkout full tag n hex dirty date : tag <> ""%string ->
  render (Pieces full hex dirty false (Some tag) n date) "pep440" = Ok (Info (checkout_version tag n hex dirty) (Some full) (Some dirty) false date).
Proof.
  intros T. unfold render, render_pep440, named_tag. cbn [pc_error pc_tag pc_distance pc_dirty pc_short pc_long pc_date]. destruct tag as [|c tag]; [easy|].
  unfold checkout_version, plus_or_dot. destruct n as [|n], dirty; reflexivity.
Qed.

(** ** Versions tell checkouts apart *)
Lemma version_plus tag n hex dirty : has_char "+" tag = false ->
  checkout_version tag n hex dirty = if (Nat.eqb n 0 && negb dirty)%bool then tag else (tag ++ String "+" (str_nat n ++ String "." (String "g" (hex ++ (if dirty then ".dirty" else "")))))%string.
Proof. intros P. unfold checkout_version. rewrite P. destruct n as [|n], dirty; reflexivity. Qed.
Lemma dirty_inj hex hex' (d d' : bool) : hexadecimal hex -> hexadecimal hex' ->
  (hex ++ (if d then ".dirty" else ""))%string = (hex' ++ (if d' then ".dirty" else ""))%string -> hex = hex' /\ d = d'.
Proof.
  intros X X' E. assert (C : has_char "." hex = false) by (now apply hexadecimal_lacks). assert (C' : has_char "." hex' = false) by (now apply hexadecimal_lacks).
  destruct d, d'; rewrite ?app_empty_r in E.
  - split; [|reflexivity]. exact (app_cancel_r _ _ _ E).
  - exfalso. rewrite <- E, has_char_app in C'. cbn in C'. rewrite Bool.orb_true_r in C'. discriminate.
  - exfalso. rewrite E, has_char_app in C. cbn in C. rewrite Bool.orb_true_r in C. discriminate.
  - now split.
Qed.
Lemma versions_differ tag n hex dirty tag' n' hex' dirty' : has_char "+" tag = false -> has_char "+" tag' = false ->
  hexadecimal hex -> hexadecimal hex' -> checkout_version tag n hex dirty = checkout_version tag' n' hex' dirty' ->
  tag = tag' /\ n = n' /\ dirty = dirty' /\ (hex = hex' \/ n = 0 /\ dirty = false).
Proof.
  intros P P' X X' E. rewrite (version_plus tag), (version_plus tag') in E by assumption.
  assert (Z : forall (k : nat) (d : bool), (Nat.eqb k 0 && negb d)%bool = true -> k = 0 /\ d = false).
  { intros k d H. apply andb_prop in H as [H1 H2]. apply PeanoNat.Nat.eqb_eq in H1. now destruct d. }
  destruct (Nat.eqb n 0 && negb dirty)%bool eqn:A, (Nat.eqb n' 0 && negb dirty')%bool eqn:B.
  - apply Z in A as [-> ->]. apply Z in B as [-> ->]. repeat split; auto.
  - exfalso. rewrite E, has_char_app in P. cbn in P. rewrite Bool.orb_true_r in P. discriminate.
  - exfalso. rewrite <- E, has_char_app in P'. cbn in P'. rewrite Bool.orb_true_r in P'. discriminate.
  - apply first_split in E as [-> E]; try assumption. apply first_split in E as [N E]; try (apply str_nat_lacks; reflexivity).
    apply str_nat_inj in N. subst n'. apply cons_inj in E as [_ E]. apply dirty_inj in E as [-> ->]; auto.
Qed.

(** ** Archives *)
Lemma ascii_compare_trans a b c : Ascii.compare a b = Lt -> Ascii.compare b c = Lt -> Ascii.compare a c = Lt.
Proof. unfold Ascii.compare. rewrite !BinNat.N.compare_lt_iff. apply BinNat.N.lt_trans. Qed.
Lemma ascii_compare_refl a : Ascii.compare a a = Eq.
Proof. unfold Ascii.compare. apply BinNat.N.compare_refl. Qed.
Lemma leb_cons a s b t : String.leb (String a s) (String b t) = match Ascii.compare a b with Lt => true | Eq => String.leb s t | Gt => false end.
Proof. unfold String.leb. cbn [String.compare]. now destruct (Ascii.compare a b). Qed.
Lemma leb_trans : forall a b c, String.leb a b = true -> String.leb b c = true -> String.leb a c = true.
Proof.
  induction a as [|x a IH]; intros [|y b] [|z c]; try (cbn; congruence). rewrite !leb_cons.
  destruct (Ascii.compare x y) eqn:E1; try discriminate; intros H1; destruct (Ascii.compare y z) eqn:E2; try discriminate; intros H2.
  - apply Ascii.compare_eq_iff in E1, E2. subst. rewrite ascii_compare_refl. exact (IH b c H1 H2).
  - apply Ascii.compare_eq_iff in E1. subst. now rewrite E2.
  - apply Ascii.compare_eq_iff in E2. subst. now rewrite E1.
  - now rewrite (ascii_compare_trans x y z).
Qed.
Lemma leb_refl s : String.leb s s = true.
Proof. induction s as [|c s IH]; [reflexivity|]. now rewrite leb_cons, ascii_compare_refl. Qed.
Lemma leb_app s t : String.leb s (s ++ t) = true.
Proof. induction s as [|c s IH]; [now destruct t|]. cbn [String.append]. now rewrite leb_cons, ascii_compare_refl. Qed.
Lemma insert_in x y l : In y (insert_text x l) <-> x = y \/ In y l.
Proof.
  induction l as [|z l IH]; [reflexivity|]. cbn [insert_text]. destruct (String.leb x z); [reflexivity|]. cbn [In]. rewrite IH. tauto.
Qed.
Lemma sort_in y l : In y (sort_texts l) <-> In y l.
Proof. induction l as [|x l IH]; [reflexivity|]. cbn. rewrite insert_in, IH. tauto. Qed.
Lemma sort_least l v r : sort_texts l = v :: r -> In v l /\ forall t, In t l -> String.leb v t = true.
Proof.
  intros E. assert (I : In v l) by (rewrite <- sort_in, E; now left). split; [exact I|]. clear I. revert v r E.
  induction l as [|x l IH]; [intros; contradiction|]. intros v r E t. cbn [sort_texts fold_right] in E. fold (sort_texts l) in E.
  destruct (sort_texts l) as [|y m] eqn:Q.
  - cbn in E. assert (x = v) by congruence. subst v. intros [<- | H]; [apply leb_refl|]. rewrite <- sort_in, Q in H. destruct H.
  - cbn [insert_text] in E. specialize (IH y m eq_refl). destruct (String.leb x y) eqn:L.
    + assert (x = v) by congruence. subst v. intros [<- | H]; [apply leb_refl|]. eapply leb_trans; [exact L|]. now apply IH.
    + assert (y = v) by congruence. subst v. intros [<- | H]; [|now apply IH]. destruct (String.leb_total x y) as [X|X]; [congruence|exact X].
Qed.
Lemma sort_nonempty l : l <> [] -> sort_texts l <> [].
Proof. destruct l as [|x l]; [easy|]. intros _ E. assert (H : In x (sort_texts (x :: l))) by (apply sort_in; now left). rewrite E in H. destruct H. Qed.

Lemma split_none c : forall s cur, has_char c s = false -> split_at c cur s = [(cur ++ s)%string].
Proof.
  induction s as [|d s IH]; intros cur H; cbn [split_at]; [now rewrite app_empty_r|]. cbn [has_char] in H. apply Bool.orb_false_elim in H as [A B].
  rewrite Ascii.eqb_sym, A, IH by exact B. now rewrite string_app_assoc.
Qed.
Lemma split_some c : forall s cur t, has_char c s = false -> split_at c cur (s ++ String c t) = (cur ++ s)%string :: split_at c "" t.
Proof.
  induction s as [|d s IH]; intros cur t H; cbn [split_at String.append]; [now rewrite Ascii.eqb_refl, app_empty_r|]. cbn [has_char] in H. apply Bool.orb_false_elim in H as [A B].
  rewrite Ascii.eqb_sym, A, IH by exact B. now rewrite string_app_assoc.
Qed.
Lemma strip_front s : s <> ""%string -> trimmed s -> strip (" " ++ s) = s.
Proof. intros _ T. change (strip (" " ++ s)) with (strip s). now apply strip_trimmed. Qed.
Lemma split_refs : forall refs, Forall ref_name refs -> refs <> [] -> map strip (split_at "," "" (String.concat ", " refs)) = refs.
Proof.
  assert (G : forall refs r, Forall ref_name (r :: refs) -> map strip (split_at "," "" (String.concat ", " (r :: refs))) = r :: refs /\ map strip (split_at "," "" (" " ++ String.concat ", " (r :: refs))) = r :: refs).
  { induction refs as [|q refs IH]; intros r F; inversion F as [|? ? [N [T [C _]]] F']; subst.
    - cbn [String.concat]. split.
      + rewrite split_none by exact C. cbn [map String.append]. now rewrite strip_trimmed.
      + rewrite split_none by exact C. cbn [map]. change ("" ++ " " ++ r)%string with (" " ++ r)%string. now rewrite strip_front.
    - destruct (IH q F') as [_ I]. change (String.concat ", " (r :: q :: refs)) with (r ++ String "," (" " ++ String.concat ", " (q :: refs)))%string. split.
      + rewrite split_some by exact C. cbn [map]. rewrite I. cbn [String.append]. now rewrite strip_trimmed.
      + change (" " ++ r ++ String "," (" " ++ String.concat ", " (q :: refs)))%string with ((" " ++ r) ++ String "," (" " ++ String.concat ", " (q :: refs)))%string.
        rewrite split_some by exact C. cbn [map]. rewrite I. change ("" ++ " " ++ r)%string with (" " ++ r)%string. now rewrite strip_front. }
  intros [|r refs] F N; [easy|]. now apply G.
Qed.
Lemma concat_lacks c sep : has_char c sep = false -> forall refs, Forall (fun r => has_char c r = false) refs -> has_char c (String.concat sep refs) = false.
Proof.
  intros S. induction refs as [|r [|q refs] IH]; intros F; [reflexivity|inversion F; subst; assumption|]. inversion F; subst.
  change (String.concat sep (r :: q :: refs)) with (r ++ sep ++ String.concat sep (q :: refs))%string. rewrite !has_char_app. rewrite H1, S. cbn [orb]. now apply IH.
Qed.
Lemma rstrip_lacks chars : forall s, (forall c, has_char c chars = true -> has_char c s = false) -> rstrip chars s = s.
Proof.
  induction s as [|d s IH]; intros H; [reflexivity|]. cbn [rstrip]. rewrite IH.
  - destruct s; [|reflexivity]. destruct (has_char d chars) eqn:E; [|reflexivity]. apply H in E. cbn in E. rewrite Ascii.eqb_refl in E. discriminate.
  - intros c C. apply H in C. cbn [has_char] in C. now apply Bool.orb_false_elim in C as [_ C].
Qed.
Lemma lstrip_lacks chars s : (forall c, has_char c chars = true -> has_char c s = false) -> lstrip chars s = s.
Proof.
  destruct s as [|d s]; intros H; [reflexivity|]. cbn [lstrip]. destruct (has_char d chars) eqn:E; [|reflexivity]. apply H in E. cbn in E. rewrite Ascii.eqb_refl in E. discriminate.
Qed.
Lemma strip_brackets s : has_char "(" s = false -> has_char ")" s = false -> strip_chars "()" ("(" ++ s ++ ")") = s.
Proof.
  intros A B. assert (K : forall c, has_char c "()" = true -> has_char c s = false).
  { intros c H. apply has_char_in in H as [-> | H]; [exact A|]. apply has_char_in in H as [-> | H]; [exact B|discriminate]. }
  unfold strip_chars. change (lstrip "()" ("(" ++ s ++ ")")) with (lstrip "()" (s ++ ")")).
  assert (R : rstrip "()" (s ++ ")") = s).
  { apply rstrip_app.
    - intros c H. apply has_char_in in H as [-> | H]; [reflexivity|discriminate].
    - intros c H. destruct (has_char c "()") eqn:X; [|reflexivity]. apply K in X. congruence. }
  destruct s as [|d s]; [reflexivity|]. rewrite <- R at 2. f_equal. cbn [String.append lstrip]. destruct (has_char d "()") eqn:E; [|reflexivity].
  apply K in E. cbn in E. rewrite Ascii.eqb_refl in E. discriminate.
Qed.
Lemma decorations_strip refs : strip (decorations refs) = ("(" ++ String.concat ", " refs ++ ")")%string.
Proof.
  unfold decorations. change (" (" ++ String.concat ", " refs ++ ")")%string with (" " ++ ("(" ++ String.concat ", " refs ++ ")"))%string.
  change (strip (" " ++ ?s)) with (strip s). apply strip_trimmed. split.
  - intros c t E. apply cons_inj in E as [<- _]. intros [H|H]; cbn in H; lia.
  - intros c t E. change (("(" ++ String.concat ", " refs ++ String ")" "") = t ++ String c "")%string in E. rewrite <- string_app_assoc in E.
    apply append_inj in E as [_ E]; [|reflexivity]. apply cons_inj in E as [<- _]. intros [H|H]; cbn in H; lia.
Qed.
Lemma keywords_refs refs full date : Forall ref_name refs -> refs <> [] ->
  git_versions_from_keywords (Keywords (decorations refs) full date) "" =
  (let tags := map (skip 5) (filter (fun r => startswith r "tag: ") refs) in
   let tags := match tags with [] => filter has_digit refs | _ => tags end in
   match sort_texts tags with
   | v :: _ => Some (Info v (Some (strip full)) (Some false) false (Some (iso_date date)))
   | [] => Some (Info "0+unknown" (Some (strip full)) (Some false) true None)
   end).
Proof.
  intros F N. unfold git_versions_from_keywords. cbn [kw_refnames kw_full kw_date]. rewrite decorations_strip.
  assert (P : startswith ("(" ++ String.concat ", " refs ++ ")") "$Format" = false) by reflexivity. rewrite P.
  rewrite strip_brackets, split_refs; try assumption.
  - destruct (sort_texts _) as [|v l]; [reflexivity|]. cbn [find]. rewrite prefix_empty. reflexivity.
  - apply concat_lacks; [reflexivity|]. eapply Forall_impl; [|exact F]. now intros a (_ & _ & _ & H & _).
  - apply concat_lacks; [reflexivity|]. eapply Forall_impl; [|exact F]. now intros a (_ & _ & _ & _ & H).
Qed.

(** ** Directories *)
Lemma dir_name_app a b : without_slash b -> a <> ""%string -> endswith a "/" = false -> dir_name (a ++ "/" ++ b) = a.
Proof.
  intros B A E. unfold dir_name. change ("/" ++ b)%string with (String "/" b); rewrite last_split_app by exact B. destruct (last_form a) as [->|(t & c & ->)]; [easy|].
  assert (C : has_char c "/" = false).
  { destruct (has_char c "/") eqn:X; [|reflexivity]. apply has_char_in in X as [-> | X]; [|discriminate]. rewrite endswith_app in E. discriminate. }
  rewrite rstrip_last by exact C. now destruct t.
Qed.
Lemma base_name_app a b : without_slash b -> base_name (a ++ "/" ++ b) = b.
Proof. intros B. unfold base_name. change ("/" ++ b)%string with (String "/" b). now rewrite last_split_app. Qed.

(** ** Dates *)
Lemma replace_first t a b : no_blank a -> replace_blank t (a ++ " " ++ b) = (a ++ t ++ b)%string.
Proof.
  induction a as [|c a IH]; intros N; [reflexivity|]. cbn [String.append replace_blank]. destruct (Ascii.eqb_spec c " ") as [->|_].
  - exfalso. apply (N " "%char); [apply has_char_in; now left|right; cbn; lia].
  - f_equal. apply IH. intros d H. apply N. apply has_char_in. now right.
Qed.
Lemma trimmed_ends a b c : a <> ""%string -> c <> ""%string -> no_blank a -> no_blank c -> trimmed (a ++ b ++ c)%string.
Proof.
  intros A C Na Nc. split.
  - intros d t E. destruct a as [|e a]; [easy|]. apply cons_inj in E as [<- _]. apply Na, has_char_in. now left.
  - intros d t E. destruct (last_form c) as [->|(u & e & ->)]; [easy|]. rewrite <- !string_app_assoc in E. apply append_inj in E as [_ E]; [|reflexivity].
    apply cons_inj in E as [<- _]. apply Nc. rewrite has_char_app. apply Bool.orb_true_intro. right. apply has_char_in. now left.
Qed.
Lemma iso_git day time zone : day <> ""%string -> zone <> ""%string -> no_blank day -> no_blank time -> no_blank zone ->
  iso_date (git_date day time zone) = (day ++ "T" ++ time ++ zone)%string.
Proof.
  intros D Z Nd Nt Nz. unfold iso_date, git_date.
  replace (day ++ " " ++ time ++ " " ++ zone)%string with (day ++ (" " ++ time ++ " ") ++ zone)%string by (rewrite !string_app_assoc; reflexivity).
  rewrite strip_trimmed by (now apply trimmed_ends).
  replace (day ++ (" " ++ time ++ " ") ++ zone)%string with (day ++ " " ++ (time ++ " " ++ zone))%string by (rewrite !string_app_assoc; reflexivity).
  rewrite replace_first by exact Nd.
  replace (day ++ "T" ++ time ++ " " ++ zone)%string with ((day ++ "T" ++ time) ++ " " ++ zone)%string by (rewrite !string_app_assoc; reflexivity).
  rewrite replace_first. 2:{ repeat apply no_blank_app; auto. apply known_blank. reflexivity. }
  cbn [String.append]. now rewrite !string_app_assoc.
Qed.
