(** * common/src/io.cpp: generateStampedString 61-73.

    The clock is read as whole seconds (std::time 62; [now] is in nanoseconds since the epoch) and std::localtime (63) is any function
    from seconds to broken-down times: time zones and daylight saving are not modelled further.  std::put_time with %Y%m%d_%H%M_%S (65)
    in the "C" locale: two digits per field and four for the year, so years 1000-9999 only.  A string is its list of bytes
    (IoModel.v).  The static buffer of std::localtime shared between threads is not modelled. *)
From Coq Require Import List NArith ZArith.
From Verif Require Import IoModel.
Import ListNotations.
Open Scope N_scope.

(** std::tm with the year in full and months from 1, as printed. *)
Record tm : Type := Tm { year : N; mon : N; mday : N; hour : N; min : N; sec : N }.
Definition two (n : N) : bytes := [48 + n / 10; 48 + n mod 10].
Definition four (n : N) : bytes := two (n / 100) ++ two (n mod 100).
(** 65. *)
Definition put_time (t : tm) : bytes := four (year t) ++ two (mon t) ++ two (mday t) ++ [95] ++ two (hour t) ++ two (min t) ++ [95] ++ two (sec t).
Definition stamped (prefix postfix : bytes) (t : tm) : bytes := prefix ++ put_time t ++ postfix.
Definition generateStampedString (localtime : Z -> tm) (prefix postfix : bytes) (now : Z) : bytes :=
  stamped prefix postfix (localtime (now / 1000000000)%Z).
