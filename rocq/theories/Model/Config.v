(** * Model of crowddynamics/config.py (load_config, import_simulation_callables),
    of the signature helpers of utils.py and of exceptions.py [deprecated];
    with conf/body_types.cfg and conf/body_types_spec.cfg *)
From Verif Require Export Model.Body.
From Coq Require Import String.
Open Scope R_scope. Open Scope string_scope. Open Scope list_scope.

(** ** Loading a configuration file *)

(** What the file has for a key, as ConfigObj reads it: a text that [float] takes for a
    number, a text it takes for "not a number", or any other text (lists of texts
    included).  Infinite numbers are left out. *)
Inductive raw : Type := Number (x : R) | NotANumber | Text (s : string).
(** A check [float(min=..., max=...)] of the specification. *)
Record check : Type := FloatCheck { c_min : option R; c_max : option R }.

(** validate.py [is_float] of the library: the value, or the error. *)
Definition is_float (c : check) (v : raw) : bool :=
  match v with
  | Text _ => false
  | NotANumber => true
  | Number x =>
      negb (match c_min c with Some m => Rltb x m | None => false end) &&
      negb (match c_max c with Some m => Rltb m x | None => false end)
  end.

(** A section of a file: keys are unique, ConfigObj refuses a file that repeats one. *)
Definition section : Type := list (string * raw).
Definition lookup {A} (k : string) (l : list (string * A)) : option A :=
  option_map snd (find (fun e => String.eqb (fst e) k) l).

(** ConfigObj.validate returns True, False, or a dictionary. *)
Inductive verdict : Type := AllGood | AllBad | Mixed.
Definition verdict_of (flags : bool * bool) : verdict :=
  let '(ret_true, ret_false) := flags in if ret_true then AllGood else if ret_false then AllBad else Mixed.

(** One key of the specification ([validate_entry] of the library): a missing key has no
    default in these specifications and fails. *)
Definition validate_entry (s : section) (e : string * check) (flags : bool * bool) : bool * bool :=
  let '(ret_true, ret_false) := flags in
  if match lookup (fst e) s with Some v => is_float (snd e) v | None => false end
  then (ret_true, false) else (false, ret_false).
Definition validate_section (spec : list (string * check)) (s : section) : verdict :=
  verdict_of (fold_left (fun flags e => validate_entry s e flags) spec (true, true)).

(** A file is a list of sections; the specification has one section [__many__], which
    applies to all of them. *)
Definition cfg_file : Type := list (string * section).
Definition many : Type := list (string * check).
Definition validate (spec : many) (f : cfg_file) : verdict :=
  verdict_of (fold_left (fun (flags : bool * bool) e =>
    let '(ret_true, ret_false) := flags in
    match validate_section spec (snd e) with
    | AllBad => (false, ret_false)
    | AllGood => (ret_true, false)
    | Mixed => (false, ret_false)
    end) f (true, true)).

(** What a key holds after validation: values that pass are converted. *)
Inductive value : Type := VFloat (x : option R) | VText (v : raw).
Definition convert (spec : many) (e : string * raw) : string * value :=
  (fst e, match lookup (fst e) spec with
          | Some c => if is_float c (snd e) then match snd e with Number x => VFloat (Some x) | _ => VFloat None end else VText (snd e)
          | None => VText (snd e)
          end).

(** config.py:23-28 [load_config]; [None]: no [configspec] is passed. *)
Definition load_config (f : cfg_file) (configspec : option many) : res (list (string * list (string * value))) :=
  match configspec with
  | None => Ok (map (fun e => (fst e, map (fun x => (fst x, VText (snd x))) (snd e))) f)
  | Some spec =>
      match validate spec f with
      | AllBad => Err ValidationError
      | AllGood | Mixed => Ok (map (fun e => (fst e, map (convert spec) (snd e))) f)
      end
  end.

(** The names of the keys of conf/body_types.cfg. *)
Definition key_name (f : bfield) : option string :=
  match f with
  | RatioRt => Some "ratio_rt" | RatioRs => Some "ratio_rs" | RatioTs => Some "ratio_ts"
  | RadiusMean => Some "radius_mean" | RadiusScale => Some "radius_scale"
  | TargetVelocityMean => Some "target_velocity_mean" | TargetVelocityScale => Some "target_velocity_scale"
  | MassMean => Some "mass_mean" | MassScale => Some "mass_scale"
  | _ => None
  end.
(** conf/body_types_spec.cfg:1-10 *)
Definition body_types_spec : many :=
  let ratio := FloatCheck (Some 0) (Some 1) in
  let positive := FloatCheck (Some 0) None in
  [("ratio_rt", ratio); ("ratio_rs", ratio); ("ratio_ts", ratio);
   ("radius_mean", positive); ("radius_scale", positive);
   ("target_velocity_mean", positive); ("target_velocity_scale", positive);
   ("mass_mean", positive); ("mass_scale", positive)].
(** conf/body_types.cfg:1-50, as ConfigObj reads it. *)
Definition body_types_file : cfg_file :=
  map (fun e => (fst e, flat_map (fun x => match key_name (fst x) with Some k => [(k, Number (snd x))] | None => [] end) (snd e))) shipped.

(** ** Signatures *)
Section Signatures.
  Context {A : Type}.
  (** A Python object: the class [inspect._empty], an instance of it, None, or another. *)
  Inductive object : Type := EmptyClass | EmptyInstance | PyNone | Object (a : A).
  Record parameter : Type := Param { p_name : string; p_default : object; p_annotation : object }.
  Record argspec : Type := ArgSpec { s_name : string; s_default : object; s_annotation : object }.
  (** utils.py:61-63 [empty_to_none] *)
  Definition empty_to_none (v : object) : object := match v with EmptyClass => PyNone | _ => v end.
  (** [isinstance(v, inspect.Parameter.empty)]; [inspect.Parameter.empty] is [inspect._empty]. *)
  Definition isinstance_empty (v : object) : bool := match v with EmptyInstance => true | _ => false end.
  (** utils.py:66-71 [mkspec] *)
  Definition mkspec (p : parameter) : res argspec :=
    if isinstance_empty (p_default p) then Err InvalidType
    else Ok (ArgSpec (p_name p) (empty_to_none (p_default p)) (empty_to_none (p_annotation p))).
  (** utils.py:74-109 [parse_signature], consumed to the end; the argument is the list of
      parameters that [inspect.signature] gives. *)
  Fixpoint parse_signature (l : list parameter) : res (list argspec) :=
    match l with
    | [] => Ok []
    | p :: l =>
        if String.eqb (p_name p) "self" then parse_signature l
        else do s <- mkspec p; do r <- parse_signature l; Ok (s :: r)
    end.
End Signatures.
Arguments object A : clear implicits.
Arguments parameter A : clear implicits.
Arguments argspec A : clear implicits.

(** ** Deprecated functions *)
Section Deprecated.
  Context {X Y : Type}.
  (** A function object: its attributes, and what calling it does. *)
  Record func : Type := Func { attributes_of : list string; body_of : X -> res Y }.
  (** The attributes of a function in Python 3 that [deprecated] could ask for. *)
  Definition python3_attributes : list string := ["__name__"; "__code__"; "__doc__"; "__module__"; "__dict__"; "__defaults__"].
  Definition getattr (f : func) (name : string) : res unit :=
    if existsb (String.eqb name) (attributes_of f) then Ok tt else Err AttributeError.
  (** exceptions.py:49-67 [deprecated]: the call of the decorated function, with the
      number of warnings emitted. *)
  Definition deprecated (f : func) (x : X) : nat * res Y :=
    match (do _ <- getattr f "__name__"; getattr f "func_code") with
    | Err e => (0%nat, Err e)
    | Ok _ => (1%nat, body_of f x)
    end.
End Deprecated.
Arguments func X Y : clear implicits.
