(** * Model of [magpie/coords/healpix.py] *)

From Coq Require Import Reals ZArith List Bool.
From Flocq Require Import Core.Raux.
From Verif Require Import Base.
Import ListNotations.
Open Scope R_scope.

(** coords/healpix.py:4-35 and 56, scalar branch of [healpix_xy2ang];
    returns (phi, theta), theta NaN when [arccos] is out of its domain. *)
Definition xy2ang (healx healy : R) : R * num :=
  if Rle_bool (Rabs healy) (PI / 4) then
    let z := 8 * healy / (3 * PI) in
    let theta := np_arccos z in
    let phi := healx in
    (phi, theta)
  else
    let sigz := 4 * healy / PI in
    let z := Rsign sigz * (1 - (1 / 3) * (2 - Rabs sigz) ^ 2) in
    let theta := np_arccos z in
    let siga := Rabs sigz - 1 in
    let k := IZR (Zfloor (2 * healx / PI)) in
    let phi := if Req_bool siga 1 then 0
               else (healx - (PI / 4) * siga * (2 * k + 1)) / (1 - siga) in
    (phi, theta).

(** coords/healpix.py:36-56, array branch of [healpix_xy2ang]. *)
Definition xy2ang_arr (healx healy : list R) : list num * list num :=
  let phi := repeat (Some 0) (length healx) in
  let theta := repeat (Some 0) (length healx) in
  let cond := np_where (map (fun y => Rle_bool (Rabs y) (PI / 4)) healy) in
  let z := map (fun y => 8 * y / (3 * PI)) (take 0 healy cond) in
  let theta := put theta cond (map np_arccos z) in
  let phi := put phi cond (map Some (take 0 healx cond)) in
  let cond := np_where (map (fun y => Rlt_bool (PI / 4) (Rabs y)) healy) in
  let sigz := map (fun y => 4 * y / PI) (take 0 healy cond) in
  let z := map (fun s => Rsign s * (1 - (1 / 3) * (2 - Rabs s) ^ 2)) sigz in
  let theta := put theta cond (map np_arccos z) in
  let siga := map (fun s => Rabs s - 1) sigz in
  let k := map (fun x => IZR (Zfloor (2 * x / PI))) (take 0 healx cond) in
  let phi :=
    if negb (existsb (fun s => Req_bool s 1) siga) then
      put phi cond
        (map2 (fun x sk => fdiv (x - (PI / 4) * fst sk * (2 * snd sk + 1)) (1 - fst sk))
              (take 0 healx cond) (combine siga k))
    else
      let c1 := np_where (map (fun s => Req_bool s 1) siga) in
      let phi := put phi (take 0%nat cond c1) (map (fun _ => Some 0) c1) in
      let c2 := np_where (map (fun s => negb (Req_bool s 1)) siga) in
      put phi (take 0%nat cond c2)
        (map2 (fun x sk => fdiv (x - (PI / 4) * fst sk * (2 * snd sk + 1)) (1 - fst sk))
              (take 0 healx (take 0%nat cond c2))
              (combine (take 0 siga c2) (take 0 k c2))) in
  (phi, theta).

(** coords/healpix.py:59-86 and 100, scalar branch of [healpix_ang2xy]. *)
Definition ang2xy (phi theta : R) : R * R :=
  let z := cos theta in
  if Rle_bool (Rabs z) (2 / 3) then
    let healx := phi in
    let healy := (3 * PI / 8) * cos theta in
    (healx, healy)
  else (* abs(z) > 2/3, the only case left *)
    let sigz := Rsign z * (2 - sqrt (3 * (1 - Rabs z))) in
    let phit := Rmod phi (PI / 2) in
    let siga := Rabs sigz - 1 in
    let healx := phi - siga * (phit - PI / 4) in
    let healy := PI * sigz / 4 in
    (healx, healy).

(** coords/healpix.py:87-100, array branch of [healpix_ang2xy]. *)
Definition ang2xy_arr (phi theta : list R) : list R * list R :=
  let z := map cos theta in
  let healx := repeat 0 (length phi) in
  let healy := repeat 0 (length theta) in
  let cond := np_where (map (fun z => Rle_bool (Rabs z) (2 / 3)) z) in
  let healx := put healx cond (take 0 phi cond) in
  let healy := put healy cond (map (fun t => (3 * PI / 8) * cos t) (take 0 theta cond)) in
  let cond := np_where (map (fun z => Rlt_bool (2 / 3) (Rabs z)) z) in
  let sigz := map (fun z => Rsign z * (2 - sqrt (3 * (1 - Rabs z)))) (take 0 z cond) in
  let phit := map (fun f => Rmod f (PI / 2)) (take 0 phi cond) in
  let siga := map (fun s => Rabs s - 1) sigz in
  let healx := put healx cond
                 (map2 (fun f st => f - fst st * (snd st - PI / 4))
                       (take 0 phi cond) (combine siga phit)) in
  let healy := put healy cond (map (fun s => PI * s / 4) sigz) in
  (healx, healy).
