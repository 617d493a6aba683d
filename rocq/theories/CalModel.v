(* Model of the dates and times of STD.ENV: src/rt/stdenv.c and lib/std.19/env-body.vhd.  Reals are
   exact here: a real number of seconds is given in millionths, or for type TIME in
   femtoseconds. *)
From Coq Require Import List ZArith Bool Ascii String.
From Verif Require Import Base.
From Verif Require JitModel.
Import ListNotations.
Local Open Scope Z_scope.

(* struct tm of the C library *)
Record tm := Tm {
  tm_sec : Z; tm_min : Z; tm_hour : Z; tm_mday : Z; tm_mon : Z; tm_year : Z; tm_wday : Z; tm_yday : Z }.
(* time_record_t: src/rt/stdenv.c:48-58 *)
Record time_record := TR {
  microsecond : Z; second : Z; minute : Z; hour : Z; day : Z; month : Z; year : Z; weekday : Z; dayofyear : Z }.

(* A result of type int: undefined if it does not fit *)
Definition c_int (z : Z) : res Z := if (- 2 ^ 31 <=? z) && (z <? 2 ^ 31) then Ok z else Fault.

(* to_time_record: src/rt/stdenv.c:182-196 *)
Definition to_time_record (t : tm) (us : Z) : res time_record :=
  if (0 <=? us) && (us <? 1000000)
  then Ok (TR us (tm_sec t) (tm_min t) (tm_hour t) (tm_mday t) (tm_mon t) (1900 + tm_year t) (tm_wday t) (tm_yday t))
  else Fault.

(* to_time_t: src/rt/stdenv.c:198-204 *)
Definition to_time_t (tr : time_record) : res Z :=
  let adj_year := year tr - 1900 in
  do! a <- c_int ((adj_year - 70) * 31536000);
  do! b <- c_int (Z.quot (adj_year - 69) 4 * 86400);
  do! c <- c_int (Z.quot (adj_year - 1) 100 * 86400);
  do! d <- c_int (Z.quot (adj_year + 299) 400 * 86400);
  Ok (second tr + minute tr * 60 + hour tr * 3600 + dayofyear tr * 86400 + a + b - c + d).

(* _std_env_epoch: src/rt/stdenv.c:254-264.  The result is a fraction, or infinite. *)
Definition env_epoch (nanos : Z) : option (Z * Z) :=
  let whole := nanos / 1000000000 in
  let rest := nanos mod 1000000000 in
  if rest =? 0 then None else Some (whole * rest + 1000000000, rest).

(* _std_env_epoch_trec: src/rt/stdenv.c:266-271 *)
Definition epoch_trec (tr : time_record) : res Z :=
  do! secs <- to_time_t tr; Ok (secs * 1000000 + microsecond tr).

(* _std_env_gmtime, _std_env_localtime: src/rt/stdenv.c:273-306.  gmtime_r is that of the C
   library; [zone] gives the offset of the local time at an instant, tm_gmtoff. *)
Definition env_gmtime (gmtime_r : Z -> tm) (time : Z) : res time_record :=
  let fsecs := time / 1000000 in
  do! secs <- c_int fsecs;
  to_time_record (gmtime_r secs) (time - fsecs * 1000000).
Definition localtime_r (gmtime_r : Z -> tm) (zone : Z -> Z) (secs : Z) : tm := gmtime_r (secs + zone secs).
Definition env_localtime (gmtime_r : Z -> tm) (zone : Z -> Z) (time : Z) : res time_record :=
  let fsecs := time / 1000000 in
  to_time_record (localtime_r gmtime_r zone fsecs) (time - fsecs * 1000000).

(* _std_env_localtime_trec, _std_env_gmtime_trec: src/rt/stdenv.c:285-336, not on Windows *)
Definition localtime_trec (gmtime_r : Z -> tm) (zone : Z -> Z) (tr : time_record) : res time_record :=
  do! time <- to_time_t tr;
  to_time_record (localtime_r gmtime_r zone time) (microsecond tr).
Definition gmtime_trec (gmtime_r : Z -> tm) (zone : Z -> Z) (tr : time_record) : res time_record :=
  do! time <- to_time_t tr;
  to_time_record (gmtime_r (time - zone time)) (microsecond tr).

(* _std_env_add_trec_real: src/rt/stdenv.c:338-361 *)
Definition add_trec_real (gmtime_r : Z -> tm) (tr : time_record) (delta : Z) : res time_record :=
  let micro := Z.rem delta 1000000 in
  let secs := Z.quot delta 1000000 in
  do! old <- to_time_t tr;
  let newsecs := old + secs in
  let newmicro := microsecond tr + micro in
  let '(newsecs, newmicro) :=
    if 1000000 <=? newmicro then (newsecs + 1, Z.rem newmicro 1000000)
    else if newmicro <? 0 then (newsecs - 1, 1000000 + Z.rem newmicro 100000)
    else (newsecs, newmicro) in
  to_time_record (gmtime_r newsecs) newmicro.

(* _std_env_diff_trec: src/rt/stdenv.c:363-370 *)
Definition diff_trec (tr1 tr2 : time_record) : res Z :=
  do! a <- to_time_t tr1;
  do! b <- to_time_t tr2;
  Ok ((a - b) * 1000000 + (microsecond tr1 - microsecond tr2)).

(* The function "-" of a record and a real: lib/std.19/env-body.vhd:159-162 *)
Definition sub_trec_real (gmtime_r : Z -> tm) (tr : time_record) (delta : Z) : res time_record :=
  add_trec_real gmtime_r tr (- delta).

(* time_to_seconds: lib/std.19/env-body.vhd:178-184.  In femtoseconds *)
Definition time_to_seconds (t : Z) : Z :=
  let frac := t mod 1000000000000000 in
  let whole := Z.quot t 1000000000000000 in
  whole * 1000000000000000 + frac.
(* _std_env_seconds_to_time: src/rt/stdenv.c:657-662.  The product is unsigned. *)
Definition seconds_to_time (r : Z) : Z :=
  let whole := Z.quot r 1000000000000000 in
  let frac := Z.rem r 1000000000000000 in
  JitModel.wrap (whole * 1000000000000000 + frac).

(* to_string: lib/std.19/env-body.vhd:194-231.  zero_pad fills the result from the right. *)
Definition to_char (n : Z) : ascii := ascii_of_nat (48 + Z.to_nat n).
Fixpoint zero_pad (value : Z) (width : nat) : list ascii :=
  match width with
  | O => []
  | S w => zero_pad (Z.quot value 10) w ++ [to_char (Z.rem value 10)]
  end.
Definition to_string (tr : time_record) (frac_digits : nat) : list ascii :=
  let buf := (zero_pad (year tr) 4 ++ ["-"] ++ zero_pad (month tr) 2 ++ ["-"] ++ zero_pad (day tr) 2 ++
              ["T"] ++ zero_pad (hour tr) 2 ++ [":"] ++ zero_pad (minute tr) 2 ++ [":"] ++
              zero_pad (second tr) 2)%char in
  if (0 <? frac_digits)%nat
  then firstn (20 + frac_digits) (buf ++ ["."%char] ++ zero_pad (microsecond tr) 6)
  else firstn 19 buf.
