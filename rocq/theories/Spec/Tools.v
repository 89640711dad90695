(** * What the command line, the conversions of traits, plots and the working directory
    should do *)
From Verif Require Import Model.CommandLine Model.WorkDir Model.Aspect.
Open Scope list_scope.

(** The column a trait gets in the array of agents. *)
Inductive column : string -> trait -> dfield -> Prop :=
| ColInt n a b : column n (TInt a b) (n, Int64, None)
| ColFloat n : column n TFloat (n, Float64, None)
| ColComplex n : column n TComplex (n, Complex128, None)
| ColBool n : column n TBool (n, Bool_, None)
| ColArray n d s : column n (TArray d s) (n, Given d, Some s).
(** [t] is the trait [n] of the class [c] itself. *)
Definition own_trait (c : cls) (n : string) (t : trait) : Prop := c_has_traits c = true /\ In (n, ATrait t) (c_vars c).

(** The option a trait gets on the command line; [None] when there is none. *)
Inductive simple_type : trait -> pytype -> Prop :=
| SInt a b : simple_type (TInt a b) PyInt | SFloat : simple_type TFloat PyFloat
| SComplex : simple_type TComplex PyComplex | SBool : simple_type TBool PyBool
| SUnicode : simple_type TUnicode PyStr.
Inductive option_type : trait -> otype -> Prop :=
| OInt a b : option_type (TInt a b) (IntRange a b) | OFloat : option_type TFloat (Plain PyFloat)
| OComplex : option_type TComplex (Plain PyComplex) | OBool : option_type TBool Flag
| OUnicode : option_type TUnicode (Plain PyStr) | OEnum l : option_type (TEnum l) (Choice l)
| OTuple ts l : Forall2 simple_type ts l -> option_type (TTuple ts) (Several l).

(** The simulation class that the name [n] means: of the .py files in the directory, the
    last one that has a class of this name. *)
Definition defines (f : file) (n : string) (c : cls) : Prop :=
  extension f = ".py"%string /\ exists vars, import_ f = Ok vars /\ In (n, Subclass c) vars.
Inductive means : list file -> string -> cls -> Prop :=
| MLast fs f n c : defines f n c -> means (fs ++ [f]) n c
| MBefore fs f n c : (forall c', ~ defines f n c') -> means fs n c -> means (fs ++ [f]) n c.
(** Modules have no variable twice. *)
Definition one_each (f : file) : Prop := forall vars, import_ f = Ok vars -> NoDup (map fst vars).
(** Every module of the directory can be imported. *)
Definition importable (fs : list file) : Prop := forall f, In f fs -> extension f = ".py"%string -> exists vars, import_ f = Ok vars.
Definition no_own_traits (c : cls) : Prop := forall n t, ~ own_trait c n t.
