(** * Model of [magpie/pixel/healpix_index.py]

    Pixel numbers, ring and position numbers and [nside] are Python integers
    ([Z]); half-integer dash indices and plane coordinates are reals. *)

From Coq Require Import Reals ZArith List Bool.
From Flocq Require Import Core.Raux.
From Verif Require Import Base.
Import ListNotations.
Open Scope R_scope.

(** The expression [np.floor(np.sqrt(ph - np.sqrt(np.floor(ph)))) + 1] of
    healpix_index.py:24, 36, 45 and 57; [None] is NaN. *)
Definition cap_ring (ph : R) : option Z :=
  match np_sqrt (IZR (Zfloor ph)) with
  | None => None
  | Some s => match np_sqrt (ph - s) with
              | None => None
              | Some t => Some (Zfloor t + 1)%Z
              end
  end.

(** healpix_index.py:4-40 and 60, scalar branch of [healpix_pix2ij].
    [int(nan)] raises ValueError; a pixel beyond 12*nside^2 leaves [ringi]
    unbound (UnboundLocalError at line 60). *)
Definition pix2ij (p nside : Z) : res (Z * Z) :=
  (if p <=? 2 * nside * (nside + 1) then
     match cap_ring ((IZR p + 1) / 2) with
     | None => Err ValueError
     | Some i => let j := p + 1 - 2 * i * (i - 1) in Ok (i, j)
     end
   else if (2 * nside * (nside + 1) <? p) && (p <? 2 * nside * (5 * nside - 1)) then
     let pd := p - 2 * nside * (nside - 1) in
     let i := Zfloor (IZR pd / (4 * IZR nside)) + nside in
     let j := pd mod (4 * nside) + 1 in
     Ok (i, j)
   else if (2 * nside * (5 * nside - 1) <=? p) && (p <=? 12 * nside ^ 2) then
     match cap_ring ((12 * IZR nside ^ 2 - IZR p) / 2) with
     | None => Err ValueError
     | Some i => let j := p + 2 * i * (i + 1) + 1 - 12 * nside ^ 2 in
                 Ok (4 * nside - i, j)
     end
   else Err UnboundLocalError)%Z.

(** Arithmetic on array cells holding an integral float or NaN. *)
Definition ozmap (f : Z -> Z) (x : option Z) : option Z := option_map f x.

(** healpix_index.py:41-60, array branch of [healpix_pix2ij].
    A cell [None] is NaN, whose [astype('int')] is an unspecified integer. *)
Definition pix2ij_arr (p : list Z) (nside : Z)
  : list (option Z) * list (option Z) :=
  let d : option Z := None in
  let i := repeat (Some 0%Z) (length p) in
  let j := repeat (Some 0%Z) (length p) in
  (* top polar cap *)
  let cond := np_where (map (fun q => q <=? 2 * nside * (nside + 1))%Z p) in
  let ph := map (fun q => (IZR q + 1) / 2) (take 0%Z p cond) in
  let i := put i cond (map cap_ring ph) in
  let j := put j cond
             (map2 (fun q => ozmap (fun i => q + 1 - 2 * i * (i - 1))%Z)
                   (take 0%Z p cond) (take d i cond)) in
  (* equatorial sector *)
  let cond := np_where (map (fun q => (2 * nside * (nside + 1) <? q)
                                      && (q <? 2 * nside * (5 * nside - 1)))%Z p) in
  let pd := map (fun q => q - 2 * nside * (nside - 1))%Z (take 0%Z p cond) in
  let i := put i cond
             (map (fun q => Some (Zfloor (IZR q / (4 * IZR nside)) + nside)%Z) pd) in
  let j := put j cond (map (fun q => Some (q mod (4 * nside) + 1)%Z) pd) in
  (* bottom polar cap *)
  let cond := np_where (map (fun q => (2 * nside * (5 * nside - 1) <=? q)
                                      && (q <=? 12 * nside ^ 2))%Z p) in
  let ph := map (fun q => (12 * IZR nside ^ 2 - IZR q) / 2) (take 0%Z p cond) in
  let i := put i cond (map cap_ring ph) in
  let j := put j cond
             (map2 (fun q => ozmap (fun i => q + 2 * i * (i + 1) + 1 - 12 * nside ^ 2)%Z)
                   (take 0%Z p cond) (take d i cond)) in
  let i := put i cond (map (ozmap (fun i => 4 * nside - i)%Z) (take d i cond)) in
  (i, j).

(** healpix_index.py:63-91 and 105, scalar branch of [healpix_ij2pix]. *)
Definition ij2pix (ringi ringj nside : Z) : Z :=
  (if ringi <=? nside then
     2 * ringi * (ringi - 1) + ringj - 1
   else if (nside <? ringi) && (ringi <? 3 * nside) then
     4 * nside * (ringi - nside) + ringj - 1 + 2 * nside * (nside - 1)
   else (* ringi >= 3*nside, the only case left *)
     let i := 4 * nside - ringi in
     12 * nside ^ 2 + ringj - 2 * i * (i + 1) - 1)%Z.

(** healpix_index.py:92-105, array branch of [healpix_ij2pix]. *)
Definition ij2pix_arr (ringi ringj : list Z) (nside : Z) : list Z :=
  (let p := repeat 0 (length ringi) in
   let cond := np_where (map (fun i => i <=? nside) ringi) in
   let p := put p cond
              (map2 (fun i j => 2 * i * (i - 1) + j - 1)
                    (take 0 ringi cond) (take 0 ringj cond)) in
   let cond := np_where (map (fun i => (nside <? i) && (i <? 3 * nside)) ringi) in
   let p := put p cond
              (map2 (fun i j => 4 * nside * (i - nside) + j - 1 + 2 * nside * (nside - 1))
                    (take 0 ringi cond) (take 0 ringj cond)) in
   let cond := np_where (map (fun i => 3 * nside <=? i) ringi) in
   let i := map (fun i => 4 * nside - i) (take 0 ringi cond) in
   let p := put p cond
              (map2 (fun j i => 12 * nside ^ 2 + j - 2 * i * (i + 1) - 1)
                    (take 0 ringj cond) i) in
   p)%Z.

(** healpix_index.py:108-125, [healpix_i2id]. *)
Definition i2id (ringi nside : Z) : R := IZR nside - IZR ringi / 2.

(** healpix_index.py:146-179 and 214, scalar branch of [healpix_j2jd].
    [ringi = 0] and [ringi = 4*nside] divide by zero. *)
Definition j2jd (ringi ringj nside : Z) : res R :=
  if (ringi <=? nside)%Z then
    let jlen := (4 * ringi)%Z in
    if (jlen =? 0)%Z then Err ZeroDivisionError else
    let k := Zfloor (IZR (4 * (ringj - 1)) / IZR jlen) in
    let x0 := IZR (Z.quot nside 2 + nside * k) in
    let x0 := if (nside mod 2 =? 0)%Z then x0 - / 2 * IZR (ringi - 1)
              else x0 - / 2 * IZR ringi + 1 in
    Ok (x0 + Rmod (IZR (ringj - 1)) (IZR jlen / 4))
  else if ((nside <? ringi) && (ringi <? 3 * nside))%Z then
    let x0 := if (nside mod 2 =? 0)%Z then / 2 * IZR ((ringi + 1) mod 2)
              else / 2 * IZR (ringi mod 2) in
    Ok (x0 + IZR ringj - 1)
  else (* ringi >= 3*nside, the only case left *)
    let jlen := (4 * (4 * nside - ringi))%Z in
    if (jlen =? 0)%Z then Err ZeroDivisionError else
    let k := Zfloor (IZR (4 * (ringj - 1)) / IZR jlen) in
    let x0 := IZR (Z.quot nside 2 + nside * k) in
    let x0 := if (nside mod 2 =? 0)%Z then x0 - / 2 * IZR (4 * nside - ringi - 1)
              else x0 - / 2 * IZR (4 * nside - ringi) + 1 in
    Ok (x0 + Rmod (IZR (ringj - 1)) (IZR jlen / 4)).

(** numpy [x % y] with integer [x] and float [y]: NaN when [y] is zero. *)
Definition np_mod (x y : R) : num :=
  if Req_bool y 0 then None else Some (Rmod x y).

(** healpix_index.py:181-214, array branch of [healpix_j2jd].  A zero ring
    length gives a non-finite cell here instead of an exception. *)
Definition j2jd_arr (ringi ringj : list Z) (nside : Z) : list num :=
  let jdash := repeat (Some 0) (length ringi) in
  let h : num := Some (IZR (Z.quot nside 2)) in
  (* North Polar Cap *)
  let cond := np_where (map (fun i => i <=? nside)%Z ringi) in
  let ri := take 0%Z ringi cond in
  let rj := take 0%Z ringj cond in
  let jlen := map (fun i => 4 * i)%Z ri in
  let k := map2 (fun j l => nfloor (fdiv (IZR (4 * (j - 1))) (IZR l))) rj jlen in
  let x0 := map (fun k => nadd h (nmul (Some (IZR nside)) k)) k in
  let x0 := if (nside mod 2 =? 0)%Z
            then map2 (fun x i => nadd x (Some (- (/ 2 * IZR (i - 1))))) x0 ri
            else map2 (fun x i => nadd x (Some (- (/ 2 * IZR i) + 1))) x0 ri in
  let m := map2 (fun j l => np_mod (IZR (j - 1)) (IZR l / 4)) rj jlen in
  let jdash := put jdash cond (map2 nadd x0 m) in
  (* Equatorial Segment *)
  let cond := np_where (map (fun i => (nside <? i) && (i <? 3 * nside))%Z ringi) in
  let ri := take 0%Z ringi cond in
  let rj := take 0%Z ringj cond in
  let x0 := if (nside mod 2 =? 0)%Z then map (fun i => / 2 * IZR ((i + 1) mod 2)) ri
            else map (fun i => / 2 * IZR (i mod 2)) ri in
  let jdash := put jdash cond (map2 (fun x j => Some (x + IZR j - 1)) x0 rj) in
  (* South Polar Cap *)
  let cond := np_where (map (fun i => 3 * nside <=? i)%Z ringi) in
  let ri := take 0%Z ringi cond in
  let rj := take 0%Z ringj cond in
  let jlen := map (fun i => 4 * (4 * nside - i))%Z ri in
  let k := map2 (fun j l => nfloor (fdiv (IZR (4 * (j - 1))) (IZR l))) rj jlen in
  let x0 := map (fun k => nadd h (nmul (Some (IZR nside)) k)) k in
  let x0 := if (nside mod 2 =? 0)%Z
            then map2 (fun x i => nadd x (Some (- (/ 2 * IZR (4 * nside - i - 1))))) x0 ri
            else map2 (fun x i => nadd x (Some (- (/ 2 * IZR (4 * nside - i)) + 1))) x0 ri in
  let m := map2 (fun j l => np_mod (IZR (j - 1)) (IZR l / 4)) rj jlen in
  let jdash := put jdash cond (map2 nadd x0 m) in
  jdash.

(** healpix_index.py:217-243, [healpix_ijd2ijs], one element; [astype('int')]
    truncates towards zero.  (Plain Python floats have no [astype]; the
    function is used on numpy values.) *)
Definition ijd2ijs (idash jdash : R) (nside : Z) : Z * Z :=
  let istar := jdash - idash + IZR nside / 2 in
  let jstar := jdash + idash + IZR nside / 2 in
  let istar := istar - / 2 in
  let istar := Ztrunc istar in
  let jstar := jstar - / 2 in
  let jstar := Ztrunc jstar in
  (istar, jstar).

(** healpix_index.py:246-270, [healpix_ijs2ijd], one element. *)
Definition ijs2ijd (istar jstar nside : Z) : R * R :=
  let istar := IZR istar + / 2 in
  let jstar := IZR jstar + / 2 in
  let jdash := (istar + jstar - IZR nside) / 2 in
  let idash := (jstar - istar) / 2 in
  (idash, jdash).

(** [np.unique] of an integer array: sorted, without repetitions. *)
Fixpoint insert_unique (x : Z) (l : list Z) : list Z :=
  match l with
  | [] => [x]
  | y :: t => if (x <? y)%Z then x :: l
              else if (x =? y)%Z then l
              else y :: insert_unique x t
  end.
Definition np_unique (l : list Z) : list Z := fold_right insert_unique [] l.

(** healpix_index.py:292-342: the two neighbour lists before wrapping.
    [np.floor(a/nside)] on integers is [a / nside] (floored division). *)
Definition ijs_neighbours_raw (istar jstar nside : Z) : list Z * list Z :=
  (let fi := istar / nside in
   let fj := jstar / nside in
   if jstar - istar + 1 =? 2 * nside then
     ([istar; istar + 1; istar + 1; istar + nside; istar + nside; istar - nside;
       istar + 1 - nside; istar + 2 * nside],
      [jstar - 1; jstar - 1; jstar; jstar - 1 + nside; jstar + nside; jstar - nside;
       jstar - nside; jstar + 2 * nside])
   else if istar - jstar + 1 =? 2 * nside then
     ([istar; istar - 1; istar - 1; istar - nside; istar - nside; istar + nside;
       istar - 1 + nside; istar - 2 * nside],
      [jstar + 1; jstar + 1; jstar; jstar + 1 - nside; jstar - nside; jstar + nside;
       jstar + nside; jstar - 2 * nside])
   else if (jstar - istar + 1 =? nside) && (istar mod nside =? 0) then
     ([istar - 1; istar; istar + 1; istar - 1; istar + 1; istar; istar + 1],
      [jstar - 1; jstar - 1; jstar - 1; jstar; jstar; jstar + 1; jstar + 1])
   else if (istar - jstar + 1 =? nside) && (jstar mod nside =? 0) then
     ([istar - 1; istar; istar - 1; istar + 1; istar - 1; istar; istar + 1],
      [jstar - 1; jstar - 1; jstar; jstar; jstar + 1; jstar + 1; jstar + 1])
   else if (istar mod nside =? 0) && (0 <? jstar + 1 - nside * (fi + 1)) then
     ([istar; istar + 1; istar + 1; istar; istar + 1;
       istar - ((jstar + 1) - nside * fj);
       istar - (jstar - nside * fj);
       istar - ((jstar - 1) - nside * fj)],
      [jstar - 1; jstar - 1; jstar; jstar + 1; jstar + 1;
       nside * fj - 1; nside * fj - 1; nside * fj - 1])
   else if (jstar mod nside =? 0) && (0 <? istar + 1 - nside * (fj + 1)) then
     ([istar - 1; istar - 1; istar; istar + 1; istar + 1;
       nside * fi - 1; nside * fi - 1; nside * fi - 1],
      [jstar; jstar + 1; jstar + 1; jstar; jstar + 1;
       jstar - ((istar + 2) - nside * fi);
       jstar - ((istar + 1) - nside * fi);
       jstar - (istar - nside * fi)])
   else if ((jstar + 1 - nside) mod nside =? 0) && (0 <? jstar + 1 - nside * (fi + 1)) then
     ([istar - 1; istar - 1; istar; istar + 1; istar + 1;
       nside * (fi + 1); nside * (fi + 1); nside * (fi + 1)],
      [jstar; jstar - 1; jstar - 1; jstar; jstar - 1;
       jstar + nside * (fi + 1) - istar;
       jstar + nside * (fi + 1) - istar - 1;
       jstar + nside * (fi + 1) - istar + 1])
   else if ((istar + 1 - nside) mod nside =? 0) && (0 <? istar + 1 - nside * (fj + 1)) then
     ([istar; istar - 1; istar - 1; istar; istar - 1;
       istar + nside * (fj + 1) - jstar;
       istar + nside * (fj + 1) - jstar - 1;
       istar + nside * (fj + 1) - jstar + 1],
      [jstar - 1; jstar - 1; jstar; jstar + 1; jstar + 1;
       nside * (fj + 1); nside * (fj + 1); nside * (fj + 1)])
   else
     ([istar - 1; istar; istar + 1; istar - 1; istar + 1; istar - 1; istar; istar + 1],
      [jstar - 1; jstar - 1; jstar - 1; jstar; jstar; jstar + 1; jstar + 1; jstar + 1]))%Z.

(** healpix_index.py:347-353: one wrap-around step, adding [s] to both arrays
    at the positions selected by [sel] applied to the sums. *)
Definition neigh_wrap (sel : Z -> bool) (s : Z) (a b : list Z) : list Z * list Z :=
  let cond := np_where (map sel (map2 Z.add a b)) in
  (put a cond (map (fun v => v + s)%Z (take 0%Z a cond)),
   put b cond (map (fun v => v + s)%Z (take 0%Z b cond))).

(** healpix_index.py:273-357, [healpix_ijs_neighbours]. *)
Definition ijs_neighbours (istar jstar nside : Z) : list Z * list Z :=
  let '(a, b) := ijs_neighbours_raw istar jstar nside in
  let '(a, b) := neigh_wrap (fun s => 9 * nside - 1 <? s)%Z (- (4 * nside))%Z a b in
  let '(a, b) := neigh_wrap (fun s => s <? nside - 1)%Z (4 * nside)%Z a b in
  (np_unique a, np_unique b).

(** healpix_index.py:360-383, [healpix_ij2xy] (scalar). *)
Definition ij2xy (ringi ringj nside : Z) : res (R * R) :=
  jdash <- j2jd ringi ringj nside ;;
  let idash := i2id ringi nside in
  let healx := jdash * PI / (2 * IZR nside) in
  let healy := idash * PI / (2 * IZR nside) in
  Ok (healx, healy).

(** healpix_index.py:386-405, [healpix_pix2xy] (scalar). *)
Definition pix2xy (p nside : Z) : res (R * R) :=
  'ij <- pix2ij p nside ;;
  ij2xy (fst ij) (snd ij) nside.

(** healpix_index.py:360-405 on arrays: [healpix_pix2xy] of an array of
    pixels.  Defined only when every [astype('int')] is specified
    ([None] otherwise). *)
Fixpoint all_some {A} (l : list (option A)) : option (list A) :=
  match l with
  | [] => Some []
  | Some a :: t => option_map (cons a) (all_some t)
  | None :: _ => None
  end.
Definition pix2xy_arr (p : list Z) (nside : Z) : option (list num * list num) :=
  match all_some (fst (pix2ij_arr p nside)), all_some (snd (pix2ij_arr p nside)) with
  | Some ri, Some rj =>
      Some (map (fun j => ndiv (nmul j (Some PI)) (Some (2 * IZR nside))) (j2jd_arr ri rj nside),
            map (fun i => fdiv (i2id i nside * PI) (2 * IZR nside)) ri)
  | _, _ => None
  end.
