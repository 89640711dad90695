(** * Model of remember_cwd in crowddynamics/utils.py *)
From Verif Require Export Model.Base.

Section WorkDir.
  (** Absolute paths. *)
  Variable path : Type.
  (** The working directory of the process and the directories that exist; the working
      directory itself may have been removed. [S] is everything else. *)
  Variable S : Type.
  Record place : Type := Place { cwd : path; exists_ : path -> bool; other : S }.
  (** The argument of [chdir]: absolute, or relative to the working directory. *)
  Variable name : Type.
  Variable resolve : path -> name -> path.

  (** [os.getcwd()] *)
  Definition getcwd (s : place) : res path := if exists_ s (cwd s) then Ok (cwd s) else Err (OtherError 2).
  (** [os.chdir(p)] for an absolute path; FileNotFoundError is [OtherError 2]. *)
  Definition chdir (p : path) (s : place) : place * option exn :=
    if exists_ s p then (Place p (exists_ s) (other s), None) else (s, Some (OtherError 2)).

  (** utils.py:11-27 [remember_cwd] around a body: the state afterwards and the exception
      that leaves the with statement. An exception of the clean-up replaces that of the
      body. *)
  Definition remember_cwd (directory : name) (body : place -> place * option exn) (s : place) : place * option exn :=
    match getcwd s with
    | Err e => (s, Some e)
    | Ok curdir =>
        let '(s, e) :=
          match chdir (resolve (cwd s) directory) s with
          | (s, None) => body s
          | (s, Some e) => (s, Some e)
          end in
        match chdir curdir s with
        | (s, None) => (s, e)
        | (s, Some e') => (s, Some e')
        end
    end.
End WorkDir.
