(** * Body traits and their observers

    crowddynamics/simulation/agents.py:63-192 (Body, BodyType),
    crowddynamics/core/rand.py:8-32 (truncnorm),
    crowddynamics/conf/body_types.cfg *)
From Coq Require Export String.
From Verif Require Export Model.Base.
Open Scope R_scope.

(** agents.py:98-129: trait values of a body.  [b_draws] counts the draws taken
    from the random source so far. *)
Record bodyt : Type := Body {
  b_radius : R; b_r_t : R; b_r_s : R; b_r_ts : R;
  b_mass : R; b_inertia_rot : R; b_target_velocity : R; b_target_angular_velocity : R;
  b_ratio_rt : R; b_ratio_rs : R; b_ratio_ts : R;
  b_radius_mean : R; b_radius_scale : R;
  b_target_velocity_mean : R; b_target_velocity_scale : R;
  b_mass_mean : R; b_mass_scale : R;
  b_body_type : string;
  b_draws : nat
}.
(** Defaults: every number is 0, the body type the empty string. *)
Definition body0 : bodyt := Body 0 0 0 0 0 0 0 0 0 0 0 0 0 0 0 0 0 "" 0.

(** The traits a client can assign. *)
Inductive bfield : Type :=
| Radius | RatioRt | RatioRs | RatioTs | RadiusMean | RadiusScale
| TargetVelocityMean | TargetVelocityScale | MassMean | MassScale
| Mass | TargetVelocity.

Definition bget (f : bfield) (b : bodyt) : R :=
  match f with
  | Radius => b_radius b | RatioRt => b_ratio_rt b | RatioRs => b_ratio_rs b | RatioTs => b_ratio_ts b
  | RadiusMean => b_radius_mean b | RadiusScale => b_radius_scale b
  | TargetVelocityMean => b_target_velocity_mean b | TargetVelocityScale => b_target_velocity_scale b
  | MassMean => b_mass_mean b | MassScale => b_mass_scale b
  | Mass => b_mass b | TargetVelocity => b_target_velocity b
  end.
(** Storing a value without notification. *)
Definition bput (f : bfield) (v : R) (b : bodyt) : bodyt :=
  let '(Body r rt rs rts m i tv tav q1 q2 q3 rm rsc tvm tvs mm ms bt n) := b in
  match f with
  | Radius => Body v rt rs rts m i tv tav q1 q2 q3 rm rsc tvm tvs mm ms bt n
  | RatioRt => Body r rt rs rts m i tv tav v q2 q3 rm rsc tvm tvs mm ms bt n
  | RatioRs => Body r rt rs rts m i tv tav q1 v q3 rm rsc tvm tvs mm ms bt n
  | RatioTs => Body r rt rs rts m i tv tav q1 q2 v rm rsc tvm tvs mm ms bt n
  | RadiusMean => Body r rt rs rts m i tv tav q1 q2 q3 v rsc tvm tvs mm ms bt n
  | RadiusScale => Body r rt rs rts m i tv tav q1 q2 q3 rm v tvm tvs mm ms bt n
  | TargetVelocityMean => Body r rt rs rts m i tv tav q1 q2 q3 rm rsc v tvs mm ms bt n
  | TargetVelocityScale => Body r rt rs rts m i tv tav q1 q2 q3 rm rsc tvm v mm ms bt n
  | MassMean => Body r rt rs rts m i tv tav q1 q2 q3 rm rsc tvm tvs v ms bt n
  | MassScale => Body r rt rs rts m i tv tav q1 q2 q3 rm rsc tvm tvs mm v bt n
  | Mass => Body r rt rs rts v i tv tav q1 q2 q3 rm rsc tvm tvs mm ms bt n
  | TargetVelocity => Body r rt rs rts m i v tav q1 q2 q3 rm rsc tvm tvs mm ms bt n
  end.
(** Stores of the derived radii, the inertia, the body type and the draw counter. *)
Definition put_radii (rt rs rts : R) (b : bodyt) : bodyt :=
  let '(Body r _ _ _ m i tv tav q1 q2 q3 rm rsc tvm tvs mm ms bt n) := b in
  Body r rt rs rts m i tv tav q1 q2 q3 rm rsc tvm tvs mm ms bt n.
Definition put_inertia (i : R) (b : bodyt) : bodyt :=
  let '(Body r rt rs rts m _ tv tav q1 q2 q3 rm rsc tvm tvs mm ms bt n) := b in
  Body r rt rs rts m i tv tav q1 q2 q3 rm rsc tvm tvs mm ms bt n.
Definition put_body_type (s : string) (b : bodyt) : bodyt :=
  let '(Body r rt rs rts m i tv tav q1 q2 q3 rm rsc tvm tvs mm ms _ n) := b in
  Body r rt rs rts m i tv tav q1 q2 q3 rm rsc tvm tvs mm ms s n.
Definition put_draws (n : nat) (b : bodyt) : bodyt :=
  let '(Body r rt rs rts m i tv tav q1 q2 q3 rm rsc tvm tvs mm ms bt _) := b in
  Body r rt rs rts m i tv tav q1 q2 q3 rm rsc tvm tvs mm ms bt n.

(** agents.py:64-129: [min=0] everywhere, [max=1] for the ratios. *)
Definition bvalid (f : bfield) (v : R) : bool :=
  Rleb 0 v && match f with RatioRt | RatioRs | RatioTs => Rleb v 1 | _ => true end.

(** agents.py:154-172 [_observe_radius]. *)
Definition observe_radius (f : bfield) (b : bodyt) : bodyt :=
  match f with
  | Radius =>
      put_radii (if Rltb 0 (b_ratio_rt b) then b_ratio_rt b * b_radius b else b_r_t b)
                (if Rltb 0 (b_ratio_rs b) then b_ratio_rs b * b_radius b else b_r_s b)
                (if Rltb 0 (b_ratio_ts b) then b_ratio_ts b * b_radius b else b_r_ts b) b
  | RatioRt => if Rltb 0 (b_radius b) then put_radii (b_ratio_rt b * b_radius b) (b_r_s b) (b_r_ts b) b else b
  | RatioRs => if Rltb 0 (b_radius b) then put_radii (b_r_t b) (b_ratio_rs b * b_radius b) (b_r_ts b) b else b
  | RatioTs => if Rltb 0 (b_radius b) then put_radii (b_r_t b) (b_r_s b) (b_ratio_ts b * b_radius b) b else b
  | _ => b
  end.

(** agents.py:185-192 [_observe_inertia_rot]. *)
Definition observe_inertia (b : bodyt) : bodyt :=
  if Reqb (b_inertia_rot b) 0 && Rltb 0 (b_mass b) && Rltb 0 (b_radius b) then
    put_inertia (4 * PI * (b_mass b / 80) * ((b_radius b / (27/100)) * (b_radius b / (27/100)))) b
  else b.

(** rand.py:8-32 [truncnorm] as called from agents.py:131-134: scipy's
    [truncnorm.rvs(-3, 3, loc, scale)] returns [loc + scale * z] with [z] drawn from
    [-3, 3]; the [n]-th such [z] is [zs n]. [abs_scale] is never 0 here. *)
Definition truncnorm3 (zs : nat -> R) (n : nat) (mean abs_scale : R) : R :=
  mean + abs_scale / Rmax (Rabs (-3)) (Rabs 3) * zs n.

Section WithRandom.
  Variable zs : nat -> R.

  (** Outcome of an assignment: raised exception, if any, and the object. *)
  Definition bres : Type := (option exn * bodyt)%type.

  (** Assignment of the three drawn traits; their observers trigger no draw. *)
  Definition assign_drawn (f : bfield) (v : R) (b : bodyt) : bres :=
    if bvalid f v then
      if Reqb v (bget f b) then (None, b)
      else (None, let b := bput f v b in
                  match f with
                  | Radius => observe_inertia (observe_radius Radius b)
                  | Mass => observe_inertia b
                  | _ => b
                  end)
    else (Some TraitError, b).

  (** agents.py:149-152, 174-177, 179-183: draw a value once mean and scale are
      set and the value is still 0. *)
  Definition observe_truncnorm (target mean scale : bfield) (b : bodyt) : bres :=
    if Reqb (bget target b) 0 && Rltb 0 (bget mean b) && Rltb 0 (bget scale b) then
      assign_drawn target (truncnorm3 zs (b_draws b) (bget mean b) (bget scale b))
                   (put_draws (S (b_draws b)) b)
    else (None, b).

  (** Assignment to any numeric trait: validation, no notification when the value
      is unchanged, otherwise the observers of the trait. *)
  Definition assign (f : bfield) (v : R) (b : bodyt) : bres :=
    if bvalid f v then
      if Reqb v (bget f b) then (None, b)
      else
        let b := bput f v b in
        match f with
        | Radius => (None, observe_inertia (observe_radius Radius b))
        | RatioRt | RatioRs | RatioTs => (None, observe_radius f b)
        | RadiusMean | RadiusScale => observe_truncnorm Radius RadiusMean RadiusScale b
        | TargetVelocityMean | TargetVelocityScale =>
            observe_truncnorm TargetVelocity TargetVelocityMean TargetVelocityScale b
        | MassMean | MassScale => observe_truncnorm Mass MassMean MassScale b
        | Mass => (None, observe_inertia b)
        | TargetVelocity => (None, b)
        end
    else (Some TraitError, b).

  (** agents.py:144-145: [for k, v in items: setattr(self, k, v)]. *)
  Fixpoint assign_items (items : list (bfield * R)) (b : bodyt) : bres :=
    match items with
    | [] => (None, b)
    | (f, v) :: items' =>
        match assign f v b with
        | (None, b') => assign_items items' b'
        | (Some e, b') => (Some e, b')
        end
    end.

  (** A body type configuration: name -> items, in file order. *)
  Definition config : Type := string -> option (list (bfield * R)).

  (** agents.py:140-147 [_observe_body_type]; the new name is stored before the
      observer runs, also when it raises. *)
  Definition assign_body_type (cfg : config) (name : string) (b : bodyt) : bres :=
    if String.eqb name (b_body_type b) then (None, b)
    else
      let old := b_body_type b in
      let b := put_body_type name b in
      if String.eqb old "" then
        match cfg name with
        | None => (Some KeyError, b)
        | Some items => assign_items items b
        end
      else (Some TraitError, b).

  (** A history of assignments. *)
  Inductive bop : Type := SetField (f : bfield) (v : R) | SetBodyType (name : string).
  Definition bstep (cfg : config) (b : bodyt) (o : bop) : bres :=
    match o with
    | SetField f v => assign f v b
    | SetBodyType s => assign_body_type cfg s b
    end.
  (** Exceptions are caught by the client, who goes on with the object. *)
  Definition brun (cfg : config) (b : bodyt) (os : list bop) : bodyt :=
    fold_left (fun b o => snd (bstep cfg b o)) os b.
End WithRandom.

(** A section of conf/body_types.cfg, in the order of the file. *)
Definition cfg_section (rt rs ts rm rsc tvm tvs mm ms : R) : list (bfield * R) :=
  [(RatioRt, rt); (RatioRs, rs); (RatioTs, ts); (RadiusMean, rm); (RadiusScale, rsc);
   (TargetVelocityMean, tvm); (TargetVelocityScale, tvs); (MassMean, mm); (MassScale, ms)].
(** conf/body_types.cfg:1-50 *)
Definition shipped : list (string * list (bfield * R)) :=
  [("adult", cfg_section (5882/10000) (3725/10000) (6275/10000) (255/1000) (35/1000) (125/100) (3/10) (735/10) 8);
   ("male", cfg_section (5926/10000) (3704/10000) (6296/10000) (27/100) (2/100) (135/100) (2/10) 80 8);
   ("female", cfg_section (5833/10000) (375/1000) (625/1000) (24/100) (2/100) (115/100) (2/10) 67 (67/10));
   ("child", cfg_section (5714/10000) (3333/10000) (6667/10000) (21/100) (15/1000) (9/10) (3/10) 57 (57/10));
   ("eldery", cfg_section (6/10) (36/100) (64/100) (25/100) (2/100) (8/10) (3/10) 70 7)]%string.
(** agents.py:136-138: the default configuration. *)
Definition shipped_config : config := fun name =>
  option_map snd (find (fun e => String.eqb (fst e) name) shipped).

(** * AgentGroup: agents.py:565-602.

    [D]: attribute dictionaries.  A member is represented by the dictionary its
    agent was built from. *)
Section Groups.
  Context {D : Type}.

  (** The three kinds of attribute sources; [n] counts the items already taken. *)
  Inductive source : Type :=
  | Coll (l : list D)
  | Gen (s : nat -> option D) (n : nat)
  | Callable (s : nat -> D) (n : nat).

  Record agroup : Type := AGroup {
    gr_size : Z; gr_has_type : bool; gr_attributes : option source; gr_members : list D }.

  (** [[next(gen) for _ in range(k)]] and [[f() for _ in range(k)]]. *)
  Fixpoint take_gen (s : nat -> option D) (n k : nat) : option (list D) * nat :=
    match k with
    | O => (Some [], n)
    | S k' => match s n with
              | None => (None, n)
              | Some d => let '(r, n') := take_gen s (S n) k' in (option_map (cons d) r, n')
              end
    end.

  (** agents.py:592-602 [_observe_members]. *)
  Definition observe_members (g : agroup) : option exn * agroup :=
    let '(AGroup size ty attrs ms) := g in
    if (0 <? size)%Z && ty then
      match attrs with
      | None => (None, g)
      | Some (Coll l) => (None, AGroup size ty attrs l)
      | Some (Gen s n) =>
          match take_gen s n (Z.to_nat size) with
          | (Some l, n') => (None, AGroup size ty (Some (Gen s n')) l)
          | (None, n') => (Some StopIteration, AGroup size ty (Some (Gen s n')) ms)
          end
      | Some (Callable s n) =>
          (None, AGroup size ty (Some (Callable s (n + Z.to_nat size))) (map s (seq n (Z.to_nat size))))
      end
    else (None, g).

  (** [AgentGroup(size=..., agent_type=..., attributes=...)]: the three traits are
      set while notifications are held, then the three notifications are
      delivered one after the other; the first exception stops the construction.
      (traitlets' [HasTraits.__init__]; [size] is taken to differ from its default.) *)
  Fixpoint notify (k : nat) (g : agroup) : option exn * agroup :=
    match k with
    | O => (None, g)
    | S k' => match observe_members g with
              | (None, g') => notify k' g'
              | r => r
              end
    end.
  Definition group_new (size : Z) (attrs : source) : option exn * agroup :=
    notify (if Z.eqb size 0 then 2 else 3) (AGroup size true (Some attrs) []).

  (** Later assignments to a trait. *)
  Definition assign_size (size : Z) (g : agroup) : option exn * agroup :=
    let '(AGroup old ty attrs ms) := g in
    if Z.eqb size old then (None, g) else observe_members (AGroup size ty attrs ms).
  Definition assign_attributes (s : source) (g : agroup) : option exn * agroup :=
    let '(AGroup size ty _ ms) := g in observe_members (AGroup size ty (Some s) ms).
End Groups.
Arguments source : clear implicits.
Arguments agroup : clear implicits.
