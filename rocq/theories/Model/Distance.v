(** * crowddynamics/core/distance.py *)
From Verif Require Export Model.Geom2D.
Open Scope R_scope.

(** distance.py:16-47 [distance_circles]. *)
Definition distance_circles (x0 : vec) (r0 : R) (x1 : vec) (r1 : R) : R * vec :=
  let x := vsub x0 x1 in
  let d := vlength x in
  let r_tot := r0 + r1 in
  let h := d - r_tot in
  let n := if Reqb d 0 then vzero else vdiv x d in
  (h, n).

(** The three circles of a body: torso, left shoulder, right shoulder. *)
Record tri (A : Type) : Type := T3 { t_0 : A; t_1 : A; t_2 : A }.
Arguments T3 {A}. Arguments t_0 {A}. Arguments t_1 {A}. Arguments t_2 {A}.

(** Tuple indexing [x[i]] for [i] in 0..2. *)
Definition tget {A} (t : tri A) (i : nat) : A :=
  match i with O => t_0 t | S O => t_1 t | _ => t_2 t end.

(** [enumerate] indices of a 3-tuple. *)
Definition idx3 : list nat := [0; 1; 2]%nat.
(** Index pairs in the order of the nested loops of distance.py:93-94. *)
Definition idx33 : list (nat * nat) := list_prod idx3 idx3.

(** State of the scan distance.py:88-91: h_min (None = NaN), normal, i_min, j_min. *)
Definition scan33 : Type := (option R * vec * nat * nat)%type.

(** distance.py:93-100: body of the nested loops. *)
Definition scan33_step (x0 : tri vec) (r0 : tri R) (x1 : tri vec) (r1 : tri R)
    (s : scan33) (ij : nat * nat) : scan33 :=
  let '(h_min, normal, i_min, j_min) := s in
  let '(i, j) := ij in
  let '(h, n) := distance_circles (tget x0 i) (tget r0 i) (tget x1 j) (tget r1 j) in
  let better := match h_min with Some m => Rltb h m | None => true end in
  if better then (Some h, n, i, j) else s.

(** distance.py:50-105 [distance_three_circles]; line 103 transcribed as
    written ([x0[j_min]] in the second lever arm). *)
Definition distance_three_circles (x0 : tri vec) (r0 : tri R) (x1 : tri vec) (r1 : tri R)
    : option R * vec * vec * vec :=
  let '(h_min, normal, i_min, j_min) :=
    fold_left (scan33_step x0 r0 x1 r1) idx33 (None, vzero, 0%nat, 0%nat) in
  let r_moment0 := vsub (vadd (tget x0 i_min) (vscale (tget r0 i_min) normal)) (t_0 x0) in
  let r_moment1 := vsub (vsub (tget x0 j_min) (vscale (tget r1 j_min) normal)) (t_0 x1) in
  (h_min, normal, r_moment0, r_moment1).

(** [np.sign] *)
Definition rsign (x : R) : R :=
  if Rltb 0 x then 1 else if Rltb x 0 then -1 else 0.

(** distance.py:108-146 [distance_circle_line].  A wall of length zero makes
    [d / l_w] NaN and with it both results: [None]. *)
Definition distance_circle_line (x : vec) (r : R) (q0 q1 : vec) : option (R * vec) :=
  let d := vsub q1 q0 in
  let l_w := vlength d in
  if Reqb l_w 0 then None
  else
    let t_w := vdiv d l_w in
    let n_w := rotate90 t_w in
    let a0 := vsub x q0 in
    let a1 := vsub x q1 in
    let l_t := - dot t_w a1 - dot t_w a0 in
    let '(d_iw, n_iw) :=
      if Rltb l_w l_t then
        let d_iw := vlength a0 in (d_iw, vdiv a0 d_iw)
      else if Rltb l_t (- l_w) then
        let d_iw := vlength a1 in (d_iw, vdiv a1 d_iw)
      else
        let l_n := dot n_w a0 in
        (Rabs l_n, vscale (rsign l_n) n_w) in
    Some (d_iw - r, n_iw).

(** State of the scan distance.py:167-169 (None = NaN). *)
Definition scan3 : Type := (option R * vec * nat)%type.

(** distance.py:171-176: loop body.  A NaN distance never satisfies [h < h_min]
    and replaces a NaN by a NaN. *)
Definition scan3_step (x : tri vec) (r : tri R) (q0 q1 : vec) (s : scan3) (i : nat) : scan3 :=
  let '(h_min, normal, i_min) := s in
  match distance_circle_line (tget x i) (tget r i) q0 q1 with
  | None => s
  | Some (h, n) =>
      let better := match h_min with Some m => Rltb h m | None => true end in
      if better then (Some h, n, i) else s
  end.

(** distance.py:149-180 [distance_three_circle_line]; [None] when every
    distance is NaN (zero-vlength wall). *)
Definition distance_three_circle_line (x : tri vec) (r : tri R) (q0 q1 : vec)
    : option (R * vec * vec) :=
  let '(h_min, normal, i_min) :=
    fold_left (scan3_step x r q0 q1) idx3 (None, vzero, 0%nat) in
  match h_min with
  | None => None
  | Some h =>
      let r_moment := vsub (vsub (tget x i_min) (vscale (tget r i_min) normal)) (t_0 x) in
      Some (h, normal, r_moment)
  end.
