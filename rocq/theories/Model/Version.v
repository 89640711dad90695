(** * Model of crowddynamics/_version.py: the version the package reports

    [git] answers the commands: the stripped output, or None when the command cannot be
    run or fails (lines 70-104, [run_command]). Texts are ASCII here. [NotThisMethod]
    is the answer None. *)
From Verif Require Import Model.Base Model.Storage.
From Coq Require Import String Ascii.
Import StringSyntax.
Open Scope list_scope.

(** [str.strip()]. *)
Definition strip_chars (chars s : string) : string := rstrip chars (lstrip chars s).
Definition strip (s : string) : string := strip_chars blanks s.
(** [s.replace(" ", t, 1)]. *)
Fixpoint replace_blank (t s : string) : string :=
  match s with
  | EmptyString => EmptyString
  | String c s => if Ascii.eqb c " " then (t ++ s)%string else String c (replace_blank t s)
  end.
(** [s[n:]]. *)
Fixpoint skip (n : nat) (s : string) : string :=
  match n, s with S n, String _ s => skip n s | _, _ => s end.
(** [s[:n]]. *)
Fixpoint take (n : nat) (s : string) : string :=
  match n, s with S n, String c s => String c (take n s) | _, _ => EmptyString end.
(** [s.split(c)]: [current] is the part read so far. *)
Fixpoint split_at (c : ascii) (current s : string) : list string :=
  match s with
  | EmptyString => [current]
  | String d s => if Ascii.eqb d c then current :: split_at c "" s
                  else split_at c (current ++ String d EmptyString) s
  end.
(** The parts before and after the last [c]. *)
Fixpoint last_split (c : ascii) (s : string) : option (string * string) :=
  match s with
  | EmptyString => None
  | String d s =>
      match last_split c s with
      | Some (a, b) => Some (String d a, b)
      | None => if Ascii.eqb d c then Some (EmptyString, s) else None
      end
  end.
Definition digit_chars : string := "0123456789".
Definition hex_chars : string := "0123456789abcdef".
Fixpoint all_in (chars s : string) : bool :=
  match s with EmptyString => true | String c s => has_char c chars && all_in chars s end.

(** _version.py:250-303: what the version is made of. [pc_error] stands for the text of the
    error; the other pieces are missing then. *)
Record pieces : Type := Pieces
  { pc_long : string; pc_short : string; pc_dirty : bool; pc_error : bool;
    pc_tag : option string; pc_distance : nat; pc_date : option string }.
(** What [get_versions] returns. *)
Record version_info : Type := Info
  { vi_version : string; vi_revision : option string; vi_dirty : option bool; vi_error : bool; vi_date : option string }.

(** _version.py:303, 174: "2017-05-01 10:00:00 +0300" to "2017-05-01T10:00:00+0300". *)
Definition iso_date (s : string) : string := replace_blank "" (replace_blank "T" (strip s)).

(** _version.py:269 [re.search] with the pattern "^(.+)-([0-9]+)-g([0-9a-f]+)$" on one line:
    the last group holds no hyphen and neither does the second. *)
Definition describe_match (s : string) : option (string * string * string) :=
  match last_split "-" s with
  | Some (a, String g hex) =>
      if Ascii.eqb g "g" && negb (String.eqb hex "") && all_in hex_chars hex then
        match last_split "-" a with
        | Some (tag, num) =>
            if negb (String.eqb tag "") && negb (String.eqb num "") && all_in digit_chars num
            then Some (tag, num, hex) else None
        | None => None
        end
      else None
  | _ => None
  end.

Section Git.
  Variable git : list string -> option string.
  (** _version.py:216-305 [git_pieces_from_vcs]; the platform is not Windows. *)
  Definition git_pieces_from_vcs (tag_prefix : string) : res (option pieces) :=
    match git ["rev-parse"; "--git-dir"]%string with
    | None => Ok None
    | Some _ =>
    match git ["describe"; "--tags"; "--dirty"; "--always"; "--long"; "--match"; tag_prefix ++ "*"]%string with
    | None => Ok None
    | Some out =>
    match git ["rev-parse"; "HEAD"]%string with
    | None => Ok None
    | Some full =>
        let out := strip out in
        let full := strip full in
        let dirty := endswith out "-dirty" in
        let out := if dirty then take (String.length out - 6) out else out in
        let bad := Pieces full (take 7 full) dirty true None 0 None in
        let finish (short : string) (tag : option string) (distance : nat) : res (option pieces) :=
          match git ["show"; "-s"; "--format=%ci"; "HEAD"]%string with
          | None => Err AttributeError
          | Some date => Ok (Some (Pieces full short dirty false tag distance (Some (iso_date date))))
          end in
        if has_char "-" out then
          match describe_match out with
          | None => Ok (Some bad)
          | Some (tag, num, hex) =>
              if startswith tag tag_prefix
              then do n <- parse_int num; finish hex (Some (skip (String.length tag_prefix) tag)) n
              else Ok (Some bad)
          end
        else
          match git ["rev-list"; "HEAD"; "--count"]%string with
          | None => Err TypeError
          | Some count => do n <- parse_int (strip count); finish (take 7 full) None n
          end
    end end end.
End Git.

(** [if pieces["closest-tag"]] *)
Definition named_tag (p : pieces) : option string :=
  match pc_tag p with Some EmptyString => None | t => t end.
(** _version.py:308-312 [plus_or_dot] of a tag. *)
Definition plus_or_dot (tag : string) : string := if has_char "+" tag then "." else "+".
(** _version.py:315-337 [render_pep440]. *)
Definition render_pep440 (p : pieces) : string :=
  match named_tag p with
  | Some tag =>
      if negb (Nat.eqb (pc_distance p) 0) || pc_dirty p
      then tag ++ plus_or_dot tag ++ str_nat (pc_distance p) ++ ".g" ++ pc_short p ++ (if pc_dirty p then ".dirty" else "")
      else tag
  | None => "0+untagged." ++ str_nat (pc_distance p) ++ ".g" ++ pc_short p ++ (if pc_dirty p then ".dirty" else "")
  end%string.
(** _version.py:340-353 [render_pep440_pre]. *)
Definition render_pep440_pre (p : pieces) : string :=
  match named_tag p with
  | Some tag => if negb (Nat.eqb (pc_distance p) 0) then tag ++ ".post.dev" ++ str_nat (pc_distance p) else tag
  | None => "0.post.dev" ++ str_nat (pc_distance p)
  end%string.
(** _version.py:356-380 [render_pep440_post]. *)
Definition render_pep440_post (p : pieces) : string :=
  match named_tag p with
  | Some tag =>
      if negb (Nat.eqb (pc_distance p) 0) || pc_dirty p
      then tag ++ ".post" ++ str_nat (pc_distance p) ++ (if pc_dirty p then ".dev0" else "") ++ plus_or_dot tag ++ "g" ++ pc_short p
      else tag
  | None => "0.post" ++ str_nat (pc_distance p) ++ (if pc_dirty p then ".dev0" else "") ++ "+g" ++ pc_short p
  end%string.
(** _version.py:383-402 [render_pep440_old]. *)
Definition render_pep440_old (p : pieces) : string :=
  match named_tag p with
  | Some tag =>
      if negb (Nat.eqb (pc_distance p) 0) || pc_dirty p
      then tag ++ ".post" ++ str_nat (pc_distance p) ++ (if pc_dirty p then ".dev0" else "")
      else tag
  | None => "0.post" ++ str_nat (pc_distance p) ++ (if pc_dirty p then ".dev0" else "")
  end%string.
(** _version.py:405-422 [render_git_describe]. *)
Definition render_git_describe (p : pieces) : string :=
  (match named_tag p with
   | Some tag => if negb (Nat.eqb (pc_distance p) 0) then tag ++ "-" ++ str_nat (pc_distance p) ++ "-g" ++ pc_short p else tag
   | None => pc_short p
   end ++ (if pc_dirty p then "-dirty" else ""))%string.
(** _version.py:425-442 [render_git_describe_long]. *)
Definition render_git_describe_long (p : pieces) : string :=
  (match named_tag p with
   | Some tag => tag ++ "-" ++ str_nat (pc_distance p) ++ "-g" ++ pc_short p
   | None => pc_short p
   end ++ (if pc_dirty p then "-dirty" else ""))%string.
(** _version.py:445-474 [render]; no style is the empty one. *)
Definition render (p : pieces) (style : string) : res version_info :=
  if pc_error p then Ok (Info "unknown" (Some (pc_long p)) None true None)
  else
    let style := if String.eqb style "" || String.eqb style "default" then "pep440"%string else style in
    do rendered <-
      (if String.eqb style "pep440" then Ok (render_pep440 p)
       else if String.eqb style "pep440-pre" then Ok (render_pep440_pre p)
       else if String.eqb style "pep440-post" then Ok (render_pep440_post p)
       else if String.eqb style "pep440-old" then Ok (render_pep440_old p)
       else if String.eqb style "git-describe" then Ok (render_git_describe p)
       else if String.eqb style "git-describe-long" then Ok (render_git_describe_long p)
       else Err ValueError);
    Ok (Info rendered (Some (pc_long p)) (Some (pc_dirty p)) false (pc_date p)).

(** ** Archives made by git *)
(** _version.py:20-30 [get_keywords]: the three texts git puts in place of the fields. *)
Record keywords : Type := Keywords { kw_refnames : string; kw_full : string; kw_date : string }.
Definition plain_keywords : keywords := Keywords "$Format:%d$" "$Format:%H$" "$Format:%ci$".
Definition has_digit (s : string) : bool := existsb (fun c => has_char c s) (list_ascii_of_string digit_chars).
(** [sorted]; equal texts, which the sets of lines 180-193 merge, follow each other here. *)
Fixpoint insert_text (x : string) (l : list string) : list string :=
  match l with [] => [x] | y :: r => if String.leb x y then x :: l else y :: insert_text x r end.
Definition sort_texts (l : list string) : list string := fold_right insert_text [] l.
(** _version.py:162-213 [git_versions_from_keywords]. *)
Definition git_versions_from_keywords (k : keywords) (tag_prefix : string) : option version_info :=
  let refnames := strip (kw_refnames k) in
  if startswith refnames "$Format" then None
  else
    let refs := map strip (split_at "," "" (strip_chars "()" refnames)) in
    let tags := map (skip 5) (filter (fun r => startswith r "tag: ") refs) in
    let tags := match tags with [] => filter has_digit refs | _ => tags end in
    match find (fun r => startswith r tag_prefix) (sort_texts tags) with
    | Some ref => Some (Info (skip (String.length tag_prefix) ref) (Some (strip (kw_full k))) (Some false) false (Some (iso_date (kw_date k))))
    | None => Some (Info "0+unknown" (Some (strip (kw_full k))) (Some false) true None)
    end.

(** ** Directories *)
(** [os.path.basename] and [os.path.dirname] on POSIX. *)
Definition base_name (p : string) : string := match last_split "/" p with Some (_, b) => b | None => p end.
Definition dir_name (p : string) : string :=
  match last_split "/" p with
  | Some (a, _) => match rstrip "/" a with EmptyString => (a ++ "/")%string | d => d end
  | None => EmptyString
  end.
(** _version.py:107-129 [versions_from_parentdir], with [n] levels left. *)
Fixpoint versions_from_parentdir (n : nat) (parentdir_prefix root : string) : option version_info :=
  match n with
  | 0 => None
  | S n =>
      let dirname := base_name root in
      if startswith dirname parentdir_prefix
      then Some (Info (skip (String.length parentdir_prefix) dirname) None (Some false) false None)
      else versions_from_parentdir n parentdir_prefix (dir_name root)
  end.

(** _version.py:477-520 [get_versions] with the configuration of lines 37-48; [file] is the
    real path of _version.py, None where Python does not tell it. [git root] runs the
    commands in [root]. *)
Definition get_versions (k : keywords) (file : option string) (git : string -> list string -> option string) : res version_info :=
  match git_versions_from_keywords k "" with
  | Some i => Ok i
  | None =>
  match file with
  | None => Ok (Info "0+unknown" None None true None)
  | Some file =>
      let root := dir_name (dir_name file) in
      do p <- git_pieces_from_vcs (git root) "";
      match p with
      | Some p => render p "pep440"
      | None =>
          match versions_from_parentdir 3 "crowddynamics-" root with
          | Some i => Ok i
          | None => Ok (Info "0+unknown" None None true None)
          end
      end
  end end.
