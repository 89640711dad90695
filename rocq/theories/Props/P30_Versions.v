(** * Property C124: the version the package reports *)
From Coq Require Import String Ascii Lia.
From Verif Require Import Model.Base Model.Storage Model.Version Spec.Versions Proofs.StorageProofs Proofs.PlaceProofs Proofs.VersionProofs.
Import StringSyntax.
Open Scope list_scope.

(** In a checkout the version is the tag exactly at the tag without changes; otherwise it tells
    the tag, the number of commits since, the commit and whether there are changes. *)
Theorem C124_checkout : forall file git tag n hex dirty full day time zone,
  tagged (git (dir_name (dir_name file))) tag n hex dirty full (git_date day time zone) ->
  day <> ""%string -> zone <> ""%string -> no_blank day -> no_blank time -> no_blank zone ->
  get_versions plain_keywords (Some file) git =
  Ok (Info (checkout_version tag n hex dirty) (Some full) (Some dirty) false (Some (day ++ "T" ++ time ++ zone)%string)).
Proof.
  intros file git tag n hex dirty full day time zone T D Z Nd Nt Nz. unfold get_versions.
  change (git_versions_from_keywords plain_keywords "") with (@None version_info). cbv iota.
  rewrite (tagged_pieces _ _ _ _ _ _ _ T). cbn [rbind]. unfold iso. rewrite (iso_git day time zone) by assumption.
  destruct T as [_ _ _ _ [T _] _ _]. now apply render_checkout.
Qed.
Print Assumptions C124_checkout.
Theorem C124_untagged : forall file git n hex dirty full day time zone,
  untagged (git (dir_name (dir_name file))) n hex dirty full (git_date day time zone) ->
  day <> ""%string -> zone <> ""%string -> no_blank day -> no_blank time -> no_blank zone ->
  exists short rest, full = (short ++ rest)%string /\ (rest = ""%string \/ String.length short = 7) /\ String.length short <= 7 /\
  get_versions plain_keywords (Some file) git =
  Ok (Info ("0+untagged." ++ str_nat n ++ ".g" ++ short ++ (if dirty then ".dirty" else "")) (Some full) (Some dirty) false (Some (day ++ "T" ++ time ++ zone)%string)).
Proof.
  intros file git n hex dirty full day time zone T D Z Nd Nt Nz. exists (take 7 full), (skip 7 full).
  assert (P : forall k s, s = (take k s ++ skip k s)%string /\ (skip k s = ""%string \/ String.length (take k s) = k) /\ String.length (take k s) <= k).
  { induction k as [|k IH]; intros [|c s]; cbn [take skip String.append String.length]; [auto|auto|repeat split; auto; lia|].
    destruct (IH s) as (A & B & C). repeat split; [now rewrite <- A|destruct B; [now left|right; congruence]|lia]. }
  destruct (P 7 full) as (P1 & P2 & P3). split; [exact P1|split; [exact P2|split; [exact P3|]]]. unfold get_versions.
  change (git_versions_from_keywords plain_keywords "") with (@None version_info). cbv iota.
  rewrite (untagged_pieces _ _ _ _ _ _ T). cbn [rbind]. unfold iso. now rewrite (iso_git day time zone).
Qed.
Print Assumptions C124_untagged.

(** Versions of different checkouts differ while no tag holds a plus: the same version means
    the same tag, distance and state, and the same commit unless the version is just the tag. *)
Theorem C124_tells_apart_partial : forall tag n hex dirty tag' n' hex' dirty', has_char "+" tag = false -> has_char "+" tag' = false ->
  hexadecimal hex -> hexadecimal hex' -> checkout_version tag n hex dirty = checkout_version tag' n' hex' dirty' ->
  tag = tag' /\ n = n' /\ dirty = dirty' /\ (hex = hex' \/ n = 0 /\ dirty = false).
Proof. exact versions_differ. Qed.
Print Assumptions C124_tells_apart_partial.
(** A tag with a plus can read like any other state after another tag. *)
Theorem C124_lookalike_refuted : forall tag n hex dirty, tag_name tag -> hexadecimal hex -> n <> 0 ->
  exists tag', tag_name tag' /\ tag' <> tag /\ forall hex', checkout_version tag' 0 hex' false = checkout_version tag n hex dirty.
Proof.
  intros tag n hex dirty [T1 T2] X N. exists (checkout_version tag n hex dirty). destruct n as [|n]; [easy|].
  set (sep := if has_char "+" tag then "."%string else "+"%string).
  assert (E : checkout_version tag (S n) hex dirty = (tag ++ sep ++ str_nat (S n) ++ ".g" ++ hex ++ (if dirty then ".dirty" else ""))%string) by reflexivity.
  rewrite E. split; [split|split].
  - destruct tag; [easy|discriminate].
  - change (no_blank (tag ++ sep ++ str_nat (S n) ++ ".g" ++ hex ++ (if dirty then ".dirty" else ""))). repeat apply no_blank_app; auto using hexadecimal_blank, digits_blank.
    + unfold sep. destruct (has_char "+" tag); apply known_blank; reflexivity.
    + apply known_blank. reflexivity.
    + destruct dirty; apply known_blank; reflexivity.
  - intros H. apply (f_equal String.length) in H. rewrite !length_app in H. change (String.length ".g") with 2 in H. lia.
  - reflexivity.
Qed.
Print Assumptions C124_lookalike_refuted.

(** An archive made by git reports the first of the tags of its commit in the order of texts,
    hence a release before its release candidates. *)
Theorem C124_archive : forall refs full date file git, Forall ref_name refs -> refs <> [] -> (exists t, In ("tag: " ++ t)%string refs) ->
  exists v i, get_versions (Keywords (decorations refs) full date) file git = Ok i /\ vi_version i = v /\ vi_error i = false /\
    (hexadecimal full -> vi_revision i = Some full) /\
    In ("tag: " ++ v)%string refs /\ forall t, In ("tag: " ++ t)%string refs -> String.leb v t = true.
Proof.
  intros refs full date file git F N [t0 T]. unfold get_versions. rewrite keywords_refs by assumption. cbv zeta.
  assert (I : forall t, In t (map (skip 5) (filter (fun r => startswith r "tag: ") refs)) <-> In ("tag: " ++ t)%string refs).
  { intros t. rewrite in_map_iff. split.
    - intros (r & <- & H). apply filter_In in H as [H P]. unfold startswith in P.
      assert (E : r = ("tag: " ++ skip 5 r)%string).
      { do 5 (destruct r as [|? r]; [discriminate|]; cbn [String.prefix] in P; match type of P with (if ?b then _ else _) = true => destruct b; [|discriminate] end; subst). reflexivity. }
      now rewrite <- E.
    - intros H. exists ("tag: " ++ t)%string. split; [exact (skip_app "tag: " t)|]. apply filter_In. split; [exact H|]. apply prefix_app. }
  remember (map (skip 5) (filter (fun r => startswith r "tag: ") refs)) as tags eqn:E. clear E.
  destruct tags as [|x tags]; [apply I in T; destruct T|]. destruct (sort_texts (x :: tags)) as [|v l] eqn:S; [now apply sort_nonempty in S|].
  apply sort_least in S as [S1 S2]. exists v. eexists. split; [reflexivity|]. cbn [vi_version vi_error vi_revision]. repeat split.
  - intros H. f_equal. now apply strip_no_blank, hexadecimal_blank.
  - now apply I.
  - intros t H. apply S2. now apply I.
Qed.
Print Assumptions C124_archive.
Theorem C124_release_first : forall refs full date file git t candidate i, Forall ref_name refs -> In ("tag: " ++ t)%string refs -> candidate <> ""%string ->
  get_versions (Keywords (decorations refs) full date) file git = Ok i -> vi_version i <> (t ++ candidate)%string.
Proof.
  intros refs full date file git t cand i F T C E. assert (N : refs <> []) by (intros ->; destruct T).
  destruct (C124_archive refs full date file git F N (ex_intro _ t T)) as (v & j & E' & <- & _ & _ & _ & L). assert (i = j) by congruence. subst j. intros X. apply L in T. rewrite X in T.
  assert (A : String.leb t (t ++ cand) = true) by apply leb_app. assert (t = (t ++ cand)%string) by (apply String.leb_antisym; assumption).
  apply (f_equal String.length) in H. rewrite length_app in H. destruct cand; [easy|]. cbn in H. lia.
Qed.
Print Assumptions C124_release_first.
(** Refuted: an archive of a commit that carries no tag reports a branch with a digit in its
    name as its version, without an error. *)
Theorem C124_branch_refuted : exists refs v i, Forall ref_name refs /\ (forall t, ~ In ("tag: " ++ t)%string refs) /\ In v refs /\
  forall file git, get_versions (Keywords (decorations refs) "0a5d4f3" "2017-05-01 10:00:00 +0300") file git = Ok i /\ vi_version i = v /\ vi_error i = false.
Proof.
  exists ["HEAD -> py36"]%string, "HEAD -> py36"%string. eexists. split; [|split; [|split; [now left|intros; split; [reflexivity|split; reflexivity]]]].
  - constructor; [|constructor]. split; [discriminate|split; [|repeat split; reflexivity]]. split.
    + intros c t E. apply cons_inj in E as [<- _]. intros [H|H]; cbn in H; lia.
    + intros c t E. change "HEAD -> py36"%string with ("HEAD -> py3" ++ String "6" "")%string in E. apply append_inj in E as [_ E]; [|reflexivity]. apply cons_inj in E as [<- _]. intros [H|H]; cbn in H; lia.
  - intros t [H|[]]. apply cons_inj in H as [H _]. discriminate.
Qed.
Print Assumptions C124_branch_refuted.

(** Without git the name of the directory tells the version, and otherwise the version is
    "0+unknown". *)
Theorem C124_directory : forall place v git, without_slash v ->
  git (place ++ "/crowddynamics-" ++ v)%string ["rev-parse"; "--git-dir"]%string = None ->
  get_versions plain_keywords (Some (place ++ "/crowddynamics-" ++ v ++ "/crowddynamics/_version.py")%string) git =
  Ok (Info v None (Some false) false None).
Proof.
  intros place v git V G. unfold get_versions. change (git_versions_from_keywords plain_keywords "") with (@None version_info). cbv iota zeta.
  assert (W : without_slash ("crowddynamics-" ++ v)) by (unfold without_slash; rewrite has_char_app, V; reflexivity).
  set (d := (place ++ "/crowddynamics-" ++ v)%string).
  assert (R : dir_name (dir_name (place ++ "/crowddynamics-" ++ v ++ "/crowddynamics/_version.py")) = d).
  { replace (place ++ "/crowddynamics-" ++ v ++ "/crowddynamics/_version.py")%string with ((d ++ "/crowddynamics") ++ "/" ++ "_version.py")%string by (unfold d; rewrite !string_app_assoc; reflexivity).
    assert (Ne : d <> ""%string) by (unfold d; destruct place; discriminate).
    rewrite dir_name_app; [|reflexivity|destruct d; discriminate|].
    - change "/crowddynamics"%string with ("/" ++ "crowddynamics")%string. apply dir_name_app; [reflexivity|exact Ne|]. unfold d.
      change ("/crowddynamics-" ++ v)%string with ("/" ++ ("crowddynamics-" ++ v))%string. rewrite <- string_app_assoc, end_app by discriminate. now apply no_slash_end.
    - change "/crowddynamics"%string with ("/" ++ "crowddynamics")%string. rewrite <- string_app_assoc, end_app by discriminate. reflexivity. }
  assert (G' : git d ["rev-parse"; "--git-dir"]%string = None) by exact G. rewrite R. unfold git_pieces_from_vcs. rewrite G'. cbn [rbind].
  assert (B : base_name d = ("crowddynamics-" ++ v)%string) by (unfold d; now apply (base_name_app place ("crowddynamics-" ++ v))).
  cbn [versions_from_parentdir]. rewrite B. assert (P : startswith ("crowddynamics-" ++ v) "crowddynamics-" = true) by apply prefix_app. rewrite P.
  now rewrite (skip_app "crowddynamics-" v).
Qed.
Print Assumptions C124_directory.
Theorem C124_unknown : forall place x y z git, place <> ""%string -> endswith place "/" = false -> without_slash x -> without_slash y -> without_slash z ->
  x <> ""%string -> y <> ""%string -> z <> ""%string ->
  startswith x "crowddynamics-" = false -> startswith y "crowddynamics-" = false -> startswith z "crowddynamics-" = false ->
  git (place ++ "/" ++ x ++ "/" ++ y ++ "/" ++ z)%string ["rev-parse"; "--git-dir"]%string = None ->
  get_versions plain_keywords (Some (place ++ "/" ++ x ++ "/" ++ y ++ "/" ++ z ++ "/crowddynamics/_version.py")%string) git =
  Ok (Info "0+unknown" None None true None).
Proof.
  intros place x y z git Np Ep Sx Sy Sz Nx Ny Nz Px Py Pz G. unfold get_versions. change (git_versions_from_keywords plain_keywords "") with (@None version_info). cbv iota zeta.
  set (a := (place ++ "/" ++ x)%string). set (b := (a ++ "/" ++ y)%string). set (d := (b ++ "/" ++ z)%string).
  assert (Ea : endswith a "/" = false) by (unfold a; rewrite <- string_app_assoc, end_app by exact Nx; now apply no_slash_end).
  assert (Eb : endswith b "/" = false) by (unfold b; rewrite <- string_app_assoc, end_app by exact Ny; now apply no_slash_end).
  assert (Ed : endswith d "/" = false) by (unfold d; rewrite <- string_app_assoc, end_app by exact Nz; now apply no_slash_end).
  assert (Na : a <> ""%string) by (unfold a; destruct place; discriminate). assert (Nb : b <> ""%string) by (unfold b; destruct a; discriminate).
  assert (Nd : d <> ""%string) by (unfold d; destruct b; discriminate).
  assert (D : (place ++ "/" ++ x ++ "/" ++ y ++ "/" ++ z)%string = d) by (unfold d, b, a; rewrite !string_app_assoc; reflexivity).
  assert (R : dir_name (dir_name (place ++ "/" ++ x ++ "/" ++ y ++ "/" ++ z ++ "/crowddynamics/_version.py")) = d).
  { replace (place ++ "/" ++ x ++ "/" ++ y ++ "/" ++ z ++ "/crowddynamics/_version.py")%string with ((d ++ "/" ++ "crowddynamics") ++ "/" ++ "_version.py")%string by (unfold d, b, a; rewrite !string_app_assoc; reflexivity).
    rewrite dir_name_app; [|reflexivity|destruct d; discriminate|].
    - apply dir_name_app; [reflexivity|exact Nd|exact Ed].
    - rewrite <- string_app_assoc, end_app by discriminate. reflexivity. }
  rewrite R. unfold git_pieces_from_vcs. rewrite D in G. rewrite G. cbn [rbind versions_from_parentdir].
  unfold d at 1. rewrite base_name_app by exact Sz. rewrite Pz. unfold d. rewrite dir_name_app by assumption.
  unfold b at 1. rewrite base_name_app by exact Sy. rewrite Py. unfold b. rewrite dir_name_app by assumption.
  unfold a at 1. rewrite base_name_app by exact Sx. rewrite Px. reflexivity.
Qed.
Print Assumptions C124_unknown.

(** A checkout rendered in the style git-describe-long reads as git described it. *)
Theorem C124_as_described : forall git tag n hex dirty full date, tagged git tag n hex dirty full date ->
  exists p i, git_pieces_from_vcs git "" = Ok (Some p) /\ render p "git-describe-long" = Ok i /\ vi_version i = describe_text tag n hex dirty.
Proof.
  intros git tag n hex dirty full date T. pose proof (tagged_pieces _ _ _ _ _ _ _ T) as P. destruct T as [_ _ _ _ [T _] _ _]. eexists. eexists. split; [exact P|]. split; [reflexivity|]. cbn [vi_version].
  unfold render_git_describe_long, named_tag. cbn [pc_tag pc_distance pc_short pc_dirty]. destruct tag as [|c tag]; [easy|]. unfold describe_text. now rewrite !string_app_assoc.
Qed.
Print Assumptions C124_as_described.
(** The styles, for a checkout after a tag: what each of them tells. The style pep440-pre does
    not tell that there are changes, and neither it nor pep440-old tells the commit. *)
Theorem C124_styles : forall full tag n hex dirty date style, tag <> ""%string ->
  let changed := negb (Nat.eqb n 0) || dirty in
  let sep := if has_char "+" tag then "."%string else "+"%string in
  let version v := render (Pieces full hex dirty false (Some tag) n date) style = Ok (Info v (Some full) (Some dirty) false date) in
  (style = "pep440-pre"%string -> version (if Nat.eqb n 0 then tag else (tag ++ ".post.dev" ++ str_nat n)%string)) /\
  (style = "pep440-post"%string -> version (if changed then (tag ++ ".post" ++ str_nat n ++ (if dirty then ".dev0" else "") ++ sep ++ "g" ++ hex)%string else tag)) /\
  (style = "pep440-old"%string -> version (if changed then (tag ++ ".post" ++ str_nat n ++ (if dirty then ".dev0" else ""))%string else tag)) /\
  (style = "git-describe"%string -> version (if Nat.eqb n 0 then (tag ++ (if dirty then "-dirty" else ""))%string else describe_text tag n hex dirty)) /\
  (style = ""%string \/ style = "default"%string \/ style = "pep440"%string -> version (checkout_version tag n hex dirty)) /\
  (~ In style [""; "default"; "pep440"; "pep440-pre"; "pep440-post"; "pep440-old"; "git-describe"; "git-describe-long"]%string ->
     render (Pieces full hex dirty false (Some tag) n date) style = Err ValueError).
Proof.
  intros full tag n hex dirty date style T changed sep version. destruct tag as [|c tag]; [easy|]. unfold version, changed, sep.
  repeat match goal with |- _ /\ _ => split end.
  - intros ->. unfold render, render_pep440_pre, named_tag. cbn [pc_error pc_tag pc_distance]. destruct n; reflexivity.
  - intros ->. reflexivity.
  - intros ->. reflexivity.
  - intros ->. set (p := Pieces full hex dirty false (Some (String c tag)) n date). change (render p "git-describe") with (Ok (Info (render_git_describe p) (Some full) (Some dirty) false date)).
    f_equal. f_equal. unfold p, render_git_describe, named_tag, describe_text. cbn [pc_tag pc_distance pc_short pc_dirty].
    destruct n; [reflexivity|]. cbn [Nat.eqb negb]. now rewrite !string_app_assoc.
  - intros S. pose proof (render_checkout full (String c tag) n hex dirty date T) as R. destruct S as [-> | [-> | ->]]; exact R.
  - intros N. unfold render. cbn [pc_error].
    assert (X : forall s, In s [""; "default"; "pep440"; "pep440-pre"; "pep440-post"; "pep440-old"; "git-describe"; "git-describe-long"]%string -> String.eqb style s = false).
    { intros s I. apply String.eqb_neq. intros ->. contradiction. }
    rewrite (X ""%string), (X "default"%string) by (cbn; tauto). cbn [orb].
    rewrite (X "pep440"%string), (X "pep440-pre"%string), (X "pep440-post"%string), (X "pep440-old"%string), (X "git-describe"%string), (X "git-describe-long"%string) by (cbn; tauto). reflexivity.
Qed.
Print Assumptions C124_styles.
(** The styles before the first tag. *)
Theorem C124_styles_untagged : forall full n hex (dirty : bool) date style,
  let dev := (if dirty then ".dev0" else "")%string in
  let version v := render (Pieces full hex dirty false None n date) style = Ok (Info v (Some full) (Some dirty) false date) in
  (style = "pep440-pre" -> version ("0.post.dev" ++ str_nat n))%string /\
  (style = "pep440-post" -> version ("0.post" ++ str_nat n ++ dev ++ "+g" ++ hex))%string /\
  (style = "pep440-old" -> version ("0.post" ++ str_nat n ++ dev))%string /\
  (style = "git-describe" \/ style = "git-describe-long" -> version (hex ++ (if dirty then "-dirty" else "")))%string /\
  (style = "" \/ style = "default" \/ style = "pep440" -> version ("0+untagged." ++ str_nat n ++ ".g" ++ hex ++ (if dirty then ".dirty" else "")))%string.
Proof.
  intros full n hex dirty date style dev version. unfold version, dev.
  split; [intros ->; reflexivity|]. split; [intros ->; reflexivity|]. split; [intros ->; reflexivity|]. split; [intros [-> | ->]; reflexivity|intros [-> | [-> | ->]]; reflexivity].
Qed.
Print Assumptions C124_styles_untagged.
(** Refuted: where git answers, but fails to count the commits of a checkout without tags or to
    tell the date, no version is reported, not even "0+unknown": importing the package raises. *)
Theorem C124_broken_git_refuted : forall file git n hex dirty full date (broken : string -> list string -> option string),
  let here := dir_name (dir_name file) in
  (untagged (git here) n hex dirty full date -> fails_only ["rev-list"; "HEAD"; "--count"]%string (git here) (broken here) ->
    get_versions plain_keywords (Some file) broken = Err TypeError) /\
  ((untagged (git here) n hex dirty full date \/ exists tag, tagged (git here) tag n hex dirty full date) ->
    fails_only ["show"; "-s"; "--format=%ci"; "HEAD"]%string (git here) (broken here) ->
    get_versions plain_keywords (Some file) broken = Err AttributeError).
Proof.
  intros file git n hex dirty full date broken here.
  assert (K : forall ex, git_pieces_from_vcs (broken here) "" = Err ex -> get_versions plain_keywords (Some file) broken = Err ex).
  { intros ex E. unfold get_versions. change (git_versions_from_keywords plain_keywords "") with (@None version_info). cbv iota zeta. fold here. now rewrite E. }
  split.
  - intros U B. apply K. pose proof (fails_at _ _ _ B) as B0. now apply (count_fails _ _ n hex dirty full date U).
  - intros [U|[tag T]] B; apply K; pose proof (fails_at _ _ _ B) as B0; [now apply (date_fails_untagged _ _ n hex dirty full date U)|now apply (date_fails_tagged _ _ tag n hex dirty full date T)].
Qed.
Print Assumptions C124_broken_git_refuted.
(** What git describes is never taken for something else: an output of another form is an
    error and not a version. *)
Theorem C124_misread : forall git out full date d, git ["rev-parse"; "--git-dir"]%string = Some d ->
  git ["describe"; "--tags"; "--dirty"; "--always"; "--long"; "--match"; "*"]%string = Some out -> git ["rev-parse"; "HEAD"]%string = Some full ->
  git ["show"; "-s"; "--format=%ci"; "HEAD"]%string = Some date -> no_blank out -> has_char "-" out = true -> (forall h, out <> (h ++ "-dirty")%string) ->
  (forall tag num hex, tag <> ""%string -> num <> ""%string -> (forall c, has_char c num = true -> has_char c "0123456789" = true) -> hex <> ""%string -> hexadecimal hex ->
     out <> (tag ++ "-" ++ num ++ "-g" ++ hex)%string) ->
  exists p i, git_pieces_from_vcs git "" = Ok (Some p) /\ render p "pep440" = Ok i /\ vi_version i = "unknown"%string /\ vi_error i = true.
Proof.
  intros git out full date d D De He Da N H Y X. unfold git_pieces_from_vcs. cbn [String.append]. rewrite D, De, He.
  rewrite (strip_no_blank out N). assert (E : endswith out "-dirty" = false) by (apply not_true_is_false; intros E; apply endswith_form in E as [h ->]; now apply (Y h)).
  rewrite E, H. assert (M : describe_match out = None); [|rewrite M; eexists; eexists; repeat split].
  unfold describe_match. assert (L : forall c s a b, last_split c s = Some (a, b) -> s = (a ++ String c b)%string).
  { intros c. induction s as [|e s IH]; intros a b; cbn [last_split]; [discriminate|]. destruct (last_split c s) as [[a' b']|].
    - intros Q. assert (String e a' = a /\ b' = b) as [<- <-] by (split; congruence). rewrite (IH a' b' eq_refl). reflexivity.
    - destruct (Ascii.eqb_spec e c) as [->|]; [|discriminate]. intros Q. assert (""%string = a /\ s = b) as [<- <-] by (split; congruence). reflexivity. }
  destruct (last_split "-" out) as [[a [|g hex]]|] eqn:E1; [reflexivity| |reflexivity]. destruct (Ascii.eqb_spec g "g") as [->|]; [|reflexivity].
  cbn [andb]. destruct (String.eqb_spec hex "") as [|Hh]; [reflexivity|]. cbn [negb andb]. destruct (all_in hex_chars hex) eqn:Ah; [|reflexivity].
  destruct (last_split "-" a) as [[tag num]|] eqn:E2; [|reflexivity].
  destruct (String.eqb_spec tag "") as [|Ht]; [reflexivity|]. destruct (String.eqb_spec num "") as [|Hn]; [reflexivity|]. cbn [negb andb]. destruct (all_in digit_chars num) eqn:An; [|reflexivity].
  exfalso. apply L in E1, E2. apply (X tag num hex Ht Hn (proj1 (all_in_iff _ _) An) Hh (proj1 (all_in_iff _ _) Ah)). rewrite E1, E2, string_app_assoc. reflexivity.
Qed.
Print Assumptions C124_misread.
(** So "-5-g0a", "1.0--g0a" and "1.0-5a-g0a" are not versions. *)
Example C124_misread_case : Forall (fun out => exists i, get_versions plain_keywords (Some "/home/user/crowddynamics/_version.py"%string)
    (fun _ l => match l with "describe"%string :: _ => Some out | _ => Some "0a5d4f3c"%string end) = Ok i /\ vi_version i = "unknown"%string)
  ["-5-g0a"; "1.0--g0a"; "1.0-5a-g0a"]%string.
Proof. repeat constructor; eexists; split; reflexivity. Qed.
(** For a package right below the root directory git is asked in the root directory. *)
Theorem C124_at_the_root : forall git tag n hex dirty full day time zone package, without_slash package -> package <> ""%string ->
  tagged (git "/"%string) tag n hex dirty full (git_date day time zone) ->
  day <> ""%string -> zone <> ""%string -> no_blank day -> no_blank time -> no_blank zone ->
  get_versions plain_keywords (Some ("/" ++ package ++ "/_version.py")%string) git =
  Ok (Info (checkout_version tag n hex dirty) (Some full) (Some dirty) false (Some (day ++ "T" ++ time ++ zone)%string)).
Proof.
  intros git tag n hex dirty full day time zone package W P T. apply C124_checkout.
  assert (R : dir_name (dir_name ("/" ++ package ++ "/_version.py")) = "/"%string); [|rewrite R; exact T].
  change ("/" ++ package ++ "/_version.py")%string with (("/" ++ package) ++ "/" ++ "_version.py")%string. rewrite dir_name_app; [|reflexivity|discriminate|].
  - unfold dir_name. change ("/" ++ package)%string with ("" ++ String "/" package)%string. rewrite last_split_app by exact W. reflexivity.
  - rewrite end_app by exact P. now apply no_slash_end.
Qed.
Print Assumptions C124_at_the_root.

Definition answers (describe : string) (l : list string) : option string :=
  match l with
  | "describe"%string :: _ => Some describe
  | ["rev-parse"; "--git-dir"]%string => Some ".git"%string
  | ["rev-parse"; "HEAD"]%string => Some "0a5d4f3c"%string
  | ["rev-list"; "HEAD"; "--count"]%string => Some "12"%string
  | _ => Some "2017-05-01 10:00:00 +0300"%string
  end.
Example C124_case : let file := "/home/user/crowddynamics/crowddynamics/_version.py"%string in
  tagged (answers "v0.1-rc-3-g0a5d4f3-dirty") "v0.1-rc" 3 "0a5d4f3" true "0a5d4f3c" (git_date "2017-05-01" "10:00:00" "+0300") /\
  get_versions plain_keywords (Some file) (fun _ => answers "v0.1-rc-3-g0a5d4f3-dirty") =
    Ok (Info "v0.1-rc+3.g0a5d4f3.dirty" (Some "0a5d4f3c"%string) (Some true) false (Some "2017-05-01T10:00:00+0300"%string)) /\
  untagged (answers "0a5d4f3") 12 "0a5d4f3" false "0a5d4f3c" (git_date "2017-05-01" "10:00:00" "+0300") /\
  get_versions (Keywords (decorations ["HEAD -> master"; "tag: 1.0rc1"; "tag: 1.0"]) "0a5d4f3c" "2017-05-01 10:00:00 +0300") (Some file) (fun _ _ => None) =
    Ok (Info "1.0" (Some "0a5d4f3c"%string) (Some false) false (Some "2017-05-01T10:00:00+0300"%string)) /\
  get_versions plain_keywords (Some "/tmp/crowddynamics-0.1/crowddynamics/_version.py"%string) (fun _ _ => None) = Ok (Info "0.1" None (Some false) false None).
Proof.
  assert (X : forall s, all_in "0123456789abcdef" s = true -> hexadecimal s) by (intros s; exact (proj1 (all_in_iff _ s))).
  cbv zeta. split; [|split; [reflexivity|split; [|split; reflexivity]]].
  - split; try reflexivity; [now exists ".git"%string| |split; [now apply X|discriminate]|now apply X]. split; [discriminate|]. apply known_blank. reflexivity.
  - split; try reflexivity; [now exists ".git"%string|split; [now apply X|discriminate]|now apply X].
Qed.
