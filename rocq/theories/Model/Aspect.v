(** * Model of set_aspect in crowddynamics/visualizations.py *)
From Verif Require Export Model.Base Model.Quantities.
Open Scope R_scope.

(** visualizations.py:17-51 [set_aspect]: the two ranges given to the figure, whose sizes in
    pixels are [plot_width] and [plot_height]. [min] of an empty sequence raises. *)
Definition set_aspect (plot_width plot_height : R) (x y : list R) (aspect margin : R)
    : res ((R * R) * (R * R)) :=
  do xmin <- rmin x;
  do xmax <- rmax x;
  do ymin <- rmin y;
  do ymax <- rmax y;
  let width := (xmax - xmin) * (1 + 2 * margin) in
  let width := if Rleb width 0 then 1 else width in
  let height := (ymax - ymin) * (1 + 2 * margin) in
  let height := if Rleb height 0 then 1 else height in
  if Reqb plot_height 0 then Err ZeroDivisionError
  else
    let r := aspect * (plot_width / plot_height) in
    do wh <- (if Rltb width (r * height) then Ok (r * height, height)
              else if Reqb r 0 then Err ZeroDivisionError else Ok (width, width / r));
    let '(width, height) := wh in
    let xcenter := 1/2 * (xmax + xmin) in
    let ycenter := 1/2 * (ymax + ymin) in
    Ok ((xcenter - 1/2 * width, xcenter + 1/2 * width),
        (ycenter - 1/2 * height, ycenter + 1/2 * height)).
