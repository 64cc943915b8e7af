(** * geometry/src/gis.cpp: geographic conversions.

    float (Scalar) is modelled by the real numbers: rounding, overflow, NaN and infinities are not modelled.  M_PI is modelled
    by pi, double literals by their decimal values, the float constants of gis.h by their float values.  A quotient by zero
    is not modelled: the quotient of Coq is 0 there.  Output references are modelled by returned tuples. *)
From Coq Require Import Reals.
Open Scope R_scope.

(** gis.h 33-41. *)
Definition SEMI_AXIS_A : R := 6378137.
Definition SEMI_AXIS_B : R := 12713505 / 2.
Definition AXIS_RATIO : R := 16720965 / 16777216.
Definition ECCENTRICITY : R := 11018529 / 134217728.
Definition ECCENTRICITY_2 : R := 1797009 / 268435456.

Definition radians (deg : R) : R := deg / 180 * PI.

(** convertLatLonAltToECEF 23-30. *)
Definition convertLatLonAltToECEF (lat lon alt : R) : R * R * R :=
  let latRad := radians lat in
  let lonRad := radians lon in
  let Nphi := SEMI_AXIS_A / sqrt (1 - ECCENTRICITY_2 * sin latRad * sin latRad) in
  ((Nphi + alt) * cos latRad * cos lonRad, (Nphi + alt) * cos latRad * sin lonRad, (AXIS_RATIO * AXIS_RATIO * Nphi + alt) * sin latRad).

(** meterPerDegLat 32-37, meterPerDegLon 39-44. *)
Definition meterPerDegLat (lat : R) : R :=
  let latRad := radians lat in
  11113209 / 100 - 56605 / 100 * cos (2 * latRad) + 120 / 100 * cos (4 * latRad) - 2 / 1000 * cos (6 * latRad).
Definition meterPerDegLon (lon : R) : R :=
  let lonRad := radians lon in
  11141513 / 100 * cos lonRad - 9455 / 100 * cos (3 * lonRad) + 12 / 100 * cos (5 * lonRad).

(** convertLatLonToLocalXY 46-49: (x, y); convertLocalXYToLatLon 51-54: (lat, lon). *)
Definition convertLatLonToLocalXY (latOrg lonOrg lat lon : R) : R * R :=
  ((lon - lonOrg) * meterPerDegLon lonOrg, (lat - latOrg) * meterPerDegLat latOrg).
Definition convertLocalXYToLatLon (latOrg lonOrg x y : R) : R * R :=
  (y / meterPerDegLat latOrg + latOrg, x / meterPerDegLon lonOrg + lonOrg).
