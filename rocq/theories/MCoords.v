(** * Model of [magpie/coords/conversions.py] and [magpie/coords/usphere_util.py] *)

From Coq Require Import Reals ZArith List Bool.
From Flocq Require Import Core.Raux.
From Verif Require Import Base.
Import ListNotations.
Open Scope R_scope.

(** conversions.py:4-27 and 31, scalar branch of [cart2polar]; [c0], [c1] are
    the entries of [center]. *)
Definition cart2polar (x y c0 c1 : R) : R * R :=
  let r := sqrt ((x - c0) ^ 2 + (y - c1) ^ 2) in
  let phi := atan2 (y - c1) (x - c0) in
  let phi := if Rlt_bool phi 0 then phi + 2 * PI else phi in
  (r, phi).

(** conversions.py:4-24 and 28-31, array branch of [cart2polar]. *)
Definition cart2polar_arr (x y : list R) (c0 c1 : R) : list R * list R :=
  let r := map2 (fun x y => sqrt ((x - c0) ^ 2 + (y - c1) ^ 2)) x y in
  let phi := map2 (fun y x => atan2 (y - c1) (x - c0)) y x in
  let cond := np_where (map (fun f => Rlt_bool f 0) phi) in
  let phi := put phi cond (map (fun f => f + 2 * PI) (take 0 phi cond)) in
  (r, phi).

(** conversions.py:34-55, [polar2cart] (one element). *)
Definition polar2cart (r phi c0 c1 : R) : R * R :=
  let x := r * cos phi + c0 in
  let y := r * sin phi + c1 in
  (x, y).

(** conversions.py:58-87 and 94, scalar branch of [cart2sphere]. *)
Definition cart2sphere (x y z c0 c1 c2 : R) : R * R * num :=
  let r := sqrt ((x - c0) ^ 2 + (y - c1) ^ 2 + (z - c2) ^ 2) in
  let phi := atan2 (y - c1) (x - c0) in
  let phi := if Rlt_bool phi 0 then phi + 2 * PI else phi in
  let theta := if negb (Req_bool r 0) then np_arccos ((z - c2) / r) else Some 0 in
  (r, phi, theta).

(** conversions.py:58-79 and 88-94, array branch of [cart2sphere]. *)
Definition cart2sphere_arr (x y z : list R) (c0 c1 c2 : R) : list R * list R * list num :=
  let r := map2 (fun xy z => sqrt ((fst xy - c0) ^ 2 + (snd xy - c1) ^ 2 + (z - c2) ^ 2))
                (combine x y) z in
  let phi := map2 (fun y x => atan2 (y - c1) (x - c0)) y x in
  let cond := np_where (map (fun f => Rlt_bool f 0) phi) in
  let phi := put phi cond (map (fun f => f + 2 * PI) (take 0 phi cond)) in
  let theta := repeat (Some 0) (length phi) in
  let cond := np_where (map (fun r => negb (Req_bool r 0)) r) in
  let theta := put theta cond
                 (map2 (fun z r => np_arccos ((z - c2) / r)) (take 0 z cond) (take 0 r cond)) in
  (r, phi, theta).

(** conversions.py:97-124, [sphere2cart] (one element). *)
Definition sphere2cart (r phi theta c0 c1 c2 : R) : R * R * R :=
  let x := r * cos phi * sin theta in
  let y := r * sin phi * sin theta in
  let z := r * cos theta in
  (x + c0, y + c1, z + c2).

(** conversions.py:127-151 and 156, scalar branch of [ortho2cart]; the default
    [fill_value] is NaN ([None]). *)
Definition ortho2cart (x y r : R) (fill : num) : num :=
  let xy := x ^ 2 + y ^ 2 in
  if Rlt_bool xy (r ^ 2) then np_sqrt (r ^ 2 - xy) else fill.

(** conversions.py:127-146 and 152-156, array branch of [ortho2cart]
    (flattened array). *)
Definition ortho2cart_arr (x y : list R) (r : R) (fill : num) : list num :=
  let xy := map2 (fun x y => x ^ 2 + y ^ 2) x y in
  let z := repeat fill (length x) in
  let cond := np_where (map (fun q => Rlt_bool q (r ^ 2)) xy) in
  put z cond (map (fun q => np_sqrt (r ^ 2 - q)) (take 0 xy cond)).

(** usphere_util.py:4-37, [usphere_area]. *)
Definition usphere_area (phi_min phi_max theta_min theta_max : R) : res R :=
  guard Rle_bool 0 phi_min && Rlt_bool phi_min (2 * PI) ;;
  guard Rlt_bool 0 phi_max && Rle_bool phi_max (2 * PI) ;;
  guard negb (Req_bool phi_min phi_max) ;;
  guard Rle_bool 0 theta_min && Rlt_bool theta_min PI ;;
  guard Rlt_bool 0 theta_max && Rle_bool theta_max PI ;;
  guard negb (Req_bool theta_min theta_max) ;;
  Ok ((phi_max - phi_min) * (cos theta_min - cos theta_max)).

(** usphere_util.py:40-55 and 58-72 (one element). *)
Definition sphere2lonlat (theta : R) : R := PI / 2 - theta.
Definition lonlat2sphere (theta : R) : R := PI / 2 - theta.
