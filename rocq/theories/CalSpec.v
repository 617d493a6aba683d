(* The calendar (ISO 8601, UTC without leap seconds) and the text of a date.  Nothing here refers
   to the model. *)
From Coq Require Import List ZArith Bool Ascii String.
Import ListNotations.
Local Open Scope Z_scope.

Definition leap (y : Z) : bool :=
  ((y mod 4 =? 0) && negb (y mod 100 =? 0)) || (y mod 400 =? 0).
Definition year_days (y : Z) : Z := if leap y then 366 else 365.
Definition month_days (y : Z) : list Z :=
  [31; (if leap y then 29 else 28); 31; 30; 31; 30; 31; 31; 30; 31; 30; 31].
Definition sum (l : list Z) : Z := fold_right Z.add 0 l.

(* The days from 1 January 1970 to 1 January of a year *)
Definition days_to (y : Z) : Z :=
  sum (map (fun k => year_days (1970 + Z.of_nat k)) (seq 0 (Z.to_nat (y - 1970))))
  - sum (map (fun k => year_days (1969 - Z.of_nat k)) (seq 0 (Z.to_nat (1970 - y)))).

(* Month 0 is January, day of the week 0 is Sunday, day of the year 0 is 1 January. *)
Record date := Date {
  year : Z; month : Z; day : Z; yday : Z; wday : Z; hour : Z; minute : Z; second : Z }.

(* The date of an instant, in seconds since the beginning of 1970 *)
Definition is_date (secs : Z) (d : date) : Prop :=
  (exists m, month d = Z.of_nat m /\ (m < 12)%nat /\
     1 <= day d <= nth m (month_days (year d)) 0 /\
     yday d = sum (firstn m (month_days (year d))) + day d - 1) /\
  0 <= hour d <= 23 /\ 0 <= minute d <= 59 /\ 0 <= second d <= 59 /\
  wday d = (4 + days_to (year d) + yday d) mod 7 /\
  secs = (days_to (year d) + yday d) * 86400 + hour d * 3600 + minute d * 60 + second d.

(* The text of a date in ISO 8601, with some digits of the fraction *)
Definition digit (n : Z) : ascii := ascii_of_nat (48 + Z.to_nat n).
Definition padded (w : nat) (n : Z) : list ascii :=
  map (fun i => digit (n / 10 ^ Z.of_nat (w - 1 - i) mod 10)) (seq 0 w).
Definition iso (year month day hour minute second micro : Z) (frac : nat) : list ascii :=
  (padded 4 year ++ ["-"] ++ padded 2 month ++ ["-"] ++ padded 2 day ++ ["T"] ++
   padded 2 hour ++ [":"] ++ padded 2 minute ++ [":"] ++ padded 2 second ++
   match frac with O => [] | _ => ["."] ++ firstn frac (padded 6 micro) end)%char.
