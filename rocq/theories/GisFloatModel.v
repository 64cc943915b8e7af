(** * geometry/src/gis.cpp in float arithmetic.

    Scalar is float (types.h 39): operations on two floats are rounded to single precision, operations with a double operand to double
    precision, values stored in a Scalar to single precision.  The functions sin and cos of the C library are parameters, as IEEE 754
    does not fix their results; sqrt is rounded correctly.  Overflow, infinities, NaN and the sign of zero are not modelled; a quotient by
    zero of Coq is 0. *)
From Coq Require Import Reals ZArith.
From Verif Require Import DoubleModel SingleModel GisModel.
Open Scope R_scope.

(** lat / 180.0 * M_PI, lines 24-25, 34 and 41. *)
Definition radiansf (deg : R) : R := single (fmul (fdiv deg 180) M_PI).

Section Library.
(** sin and cos of a float argument: the double functions of C or the float overloads of C++, depending on the headers that are visible;
    [wide] tells whether products with their results are made in double. *)
Context (wide : bool) (sinf cosf : R -> R).
(** cos of a double argument. *)
Context (cosd : R -> R).
Definition wmul (a b : R) : R := if wide then fmul a b else single (a * b).

(** convertLatLonAltToECEF 23-30; 1.0 is a double. *)
Definition convertLatLonAltToECEFf (lat lon alt : R) : R * R * R :=
  let latRad := radiansf lat in
  let lonRad := radiansf lon in
  let Nphi := single (fdiv SEMI_AXIS_A (rnd (sqrt (fsub 1 (wmul (wmul ECCENTRICITY_2 (sinf latRad)) (sinf latRad)))))) in
  (single (wmul (wmul (single (Nphi + alt)) (cosf latRad)) (cosf lonRad)),
   single (wmul (wmul (single (Nphi + alt)) (cosf latRad)) (sinf lonRad)),
   single (wmul (single (single (single (AXIS_RATIO * AXIS_RATIO) * Nphi) + alt)) (sinf latRad))).

(** meterPerDegLat 32-37, meterPerDegLon 39-44. *)
Definition meterPerDegLatf (lat : R) : R :=
  let latRad := radiansf lat in
  single (fsub (fadd (fsub (rnd (11113209 / 100)) (fmul (rnd (56605 / 100)) (cosd (fmul 2 latRad)))) (fmul (rnd (120 / 100)) (cosd (fmul 4 latRad))))
            (fmul (rnd (2 / 1000)) (cosd (fmul 6 latRad)))).
Definition meterPerDegLonf (lon : R) : R :=
  let lonRad := radiansf lon in
  single (fadd (fsub (fmul (rnd (11141513 / 100)) (cosf lonRad)) (fmul (rnd (9455 / 100)) (cosd (fmul 3 lonRad)))) (fmul (rnd (12 / 100)) (cosd (fmul 5 lonRad)))).

(** convertLatLonToLocalXY 46-49: (x, y); convertLocalXYToLatLon 51-54: (lat, lon). *)
Definition convertLatLonToLocalXYf (latOrg lonOrg lat lon : R) : R * R :=
  (single (single (lon - lonOrg) * meterPerDegLonf lonOrg), single (single (lat - latOrg) * meterPerDegLatf latOrg)).
Definition convertLocalXYToLatLonf (latOrg lonOrg x y : R) : R * R :=
  (single (single (y / meterPerDegLatf latOrg) + latOrg), single (single (x / meterPerDegLonf lonOrg) + lonOrg)).
End Library.
