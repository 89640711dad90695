(** * Model of crowddynamics/cli.py, with import_subclasses of utils.py *)
From Verif Require Export Model.TraitTypes.
Open Scope list_scope.

(** What a module of the working directory defines or imports: a subclass of
    MultiAgentSimulation, that class itself, or anything else. *)
Inductive object : Type := Subclass (c : cls) | BaseClass | OtherObject.
(** An entry of [os.listdir]: its extension and what importing it gives. *)
Record file : Type := File { extension : string; import_ : res (list (string * object)) }.

(** utils.py:132-152 [filter_cls] and [import_subclasses]; [vars(mod)] has no name twice. *)
Definition import_subclasses (f : file) : res (list (string * cls)) :=
  do vars <- import_ f;
  Ok (flat_map (fun e => match snd e with Subclass c => [(fst e, c)] | _ => [] end) vars).

(** [OrderedDict.update]: a known name keeps its place and gets the new value. *)
Fixpoint put {A} (k : string) (v : A) (d : list (string * A)) : list (string * A) :=
  match d with
  | [] => [(k, v)]
  | (n, w) :: d => if String.eqb k n then (n, v) :: d else (n, w) :: put k v d
  end.
Definition update {A} (d l : list (string * A)) : list (string * A) :=
  fold_left (fun d e => put (fst e) (snd e) d) l d.
Fixpoint get {A} (k : string) (d : list (string * A)) : option A :=
  match d with
  | [] => None
  | (n, v) :: d => if String.eqb k n then Some v else get k d
  end.

(** cli.py:24-31 [import_simulations] in the working directory. *)
Fixpoint import_from (d : list (string * cls)) (files : list file) : res (list (string * cls)) :=
  match files with
  | [] => Ok d
  | f :: files =>
      if String.eqb (extension f) ".py" then
        do l <- import_subclasses f; import_from (update d l) files
      else import_from d files
  end.
Definition import_simulations (files : list file) : res (list (string * cls)) := import_from [] files.

(** The commands of the group [run]: names and options, and the variable [simulation_cls]
    that the callbacks of all commands read when they are called. *)
Record commands : Type := Commands { c_list : list (string * list (string * otype)); c_cell : option cls }.
(** cli.py:77-87, the loop. *)
Fixpoint make_commands (s : commands) (sims : list (string * cls)) : res commands :=
  match sims with
  | [] => Ok s
  | (n, c) :: sims =>
      do params <- all_ok (fun e => trait_to_option (fst e) (ATrait (snd e))) (class_own_traits c None);
      make_commands (Commands (update (c_list s) [(n, params)]) (Some c)) sims
  end.
(** cli.py:73-87 [simulation_commands]. *)
Definition simulation_commands (files : list file) : res commands :=
  do sims <- import_simulations files; make_commands (Commands [] None) sims.

(** Calling the command [name]: click calls the callback with one keyword argument for
    every option, and the callback takes none; else it makes and runs an instance of the
    class the variable holds, with no arguments. An unknown name is a usage error
    ([OtherError 3]). *)
Definition call_command (s : commands) (name : string) : res cls :=
  match get name (c_list s) with
  | None => Err (OtherError 3)
  | Some [] => match c_cell s with Some c => Ok c | None => Err (OtherError 4) end
  | Some (_ :: _) => Err TypeError
  end.
(** cli.py:90-92: running the file as a script. *)
Definition script (files : list file) (name : string) : res cls :=
  do s <- simulation_commands files; call_command s name.
(** setup.py: the installed command calls [main] only. *)
Definition installed (files : list file) (name : string) : res cls := call_command (Commands [] None) name.

(** ** The options of [run] *)
(** A logging level: the list of choices mixes numbers and names; the command line gives
    text. *)
Inductive level : Type := LNumber (n : Z) | LName (s : string).
Definition level_eqb (a b : level) : bool :=
  match a, b with
  | LNumber m, LNumber n => Z.eqb m n
  | LName s, LName t => String.eqb s t
  | _, _ => false
  end.
(** logging.py:9-13 [LOGLEVELS], with the numbers of the standard library. *)
Definition loglevels : list level :=
  map LNumber [50; 50; 40; 30; 30; 20; 10; 0]%Z
  ++ map LName ["CRITICAL"; "FATAL"; "ERROR"; "WARNING"; "WARN"; "INFO"; "DEBUG"; "NOTSET"]%string.
(** click's [Choice.convert]: a value that is not a choice is reported with the choices
    joined by commas, which raises TypeError unless all are text. *)
Definition joinable (l : list level) : bool := forallb (fun x => match x with LName _ => true | _ => false end) l.
Definition choice (choices : list level) (v : level) : res level :=
  if existsb (level_eqb v) choices then Ok v
  else if joinable choices then Err (OtherError 3) else Err TypeError.
(** click's [Choice.get_metavar], for the help text: joins the choices too. *)
Definition run_help : res unit := if joinable loglevels then Ok tt else Err TypeError.
(** cli.py:60-70 [run] with the names that follow (the group is chained): the classes
    that were run and how it ended. The level goes to [setup_logging] (logging.py:52-56),
    which does not use it; [num] is stored and read by nothing. Without a level the
    default, [logging.INFO], is converted too. All names are looked up before the first
    is called. Without any argument click shows the help text instead ([no_args_is_help]);
    with options but no name it reports a usage error. *)
Fixpoint call_all (s : commands) (names : list string) : list cls * res unit :=
  match names with
  | [] => ([], Ok tt)
  | n :: names =>
      match call_command s n with
      | Err e => ([], Err e)
      | Ok c => let '(l, r) := call_all s names in (c :: l, r)
      end
  end.
Definition run_group (s : commands) (loglevel : option string) (num : option nat) (names : list string) : list cls * res unit :=
  match loglevel, num, names with
  | None, None, [] => ([], run_help)
  | _, _, _ =>
      match choice loglevels (match loglevel with Some t => LName t | None => LNumber 20 end) with
      | Err e => ([], Err e)
      | Ok _ =>
          match names with
          | [] => ([], Err (OtherError 3))
          | _ =>
              if forallb (fun n => match get n (c_list s) with Some _ => true | None => false end) names
              then call_all s names else ([], Err (OtherError 3))
          end
      end
  end.
(** cli.py:90-92: the file as a script with the arguments [run ...]. *)
Definition script_run (files : list file) (loglevel : option string) (num : option nat) (names : list string) : list cls * res unit :=
  match simulation_commands files with
  | Err e => ([], Err e)
  | Ok s => run_group s loglevel num names
  end.
