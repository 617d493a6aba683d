(* What T'VALUE must make of a string and what T'IMAGE must return, for the scalar types
   of VHDL.  A string is a list of character codes of ISO 8859-1.

   An integer or physical literal here is what nvc documents by its behaviour: digits with
   underlines, an optional minus sign, white space around.  Nothing here refers to the
   model. *)
From Coq Require Import List ZArith Bool.
Import ListNotations.
Local Open Scope Z_scope.

Definition space (c : Z) : Prop :=
  c = 32 \/ c = 9 \/ c = 10 \/ c = 11 \/ c = 12 \/ c = 13 \/ c = 160.
Definition digit (c : Z) : Prop := 48 <= c <= 57.
Definition underline (c : Z) : Prop := c = 95.
Definition quote : Z := 39.

(* The number written by digits and underlines, most significant first. *)
Fixpoint decimal (acc : Z) (ds : list Z) : Z :=
  match ds with
  | [] => acc
  | c :: ds => if c =? 95 then decimal acc ds else decimal (10 * acc + (c - 48)) ds
  end.

Definition signed (minus : bool) (n : Z) : Z := if minus then - n else n.
Definition minus_sign (minus : bool) : list Z := if minus then [45] else [].

(* [s] begins, after white space, with an integer literal of value [v]; [rest] follows and
   does not continue it. *)
Definition literal_then (s : list Z) (v : Z) (rest : list Z) : Prop :=
  exists pre minus body,
    s = pre ++ minus_sign minus ++ body ++ rest /\
    Forall space pre /\
    Forall (fun c => digit c \/ underline c) body /\
    Exists digit body /\
    (forall c t, rest = c :: t -> ~ digit c /\ ~ underline c) /\
    v = signed minus (decimal 0 body).

Definition integer_literal (s : list Z) (v : Z) : Prop :=
  exists post, literal_then s v post /\ Forall space post.

(* The image of an integer: no spaces, no leading zeros. *)
Definition integer_image (x : Z) (s : list Z) : Prop :=
  exists body,
    s = minus_sign (x <? 0) ++ body /\
    Forall digit body /\
    (body = [48] \/ exists c t, body = c :: t /\ c <> 48) /\
    decimal 0 body = Z.abs x.

Definition in_int64 (x : Z) : Prop := - 2 ^ 63 <= x < 2 ^ 63.

(* Letters of identifiers *)
Definition upper (c : Z) : Z := if (97 <=? c) && (c <=? 122) then c - 32 else c.
Definition same_but_case (s t : list Z) : Prop := map upper s = map upper t.

(* Names of literals as the analyser stores them: basic identifiers in upper case, or a
   character between quotes. *)
Definition basic_char (c : Z) : Prop := (65 <= c <= 90) \/ digit c \/ underline c.
Definition basic_name (n : list Z) : Prop :=
  Forall basic_char n /\ exists c t, n = c :: t /\ 65 <= c <= 90.
Definition char_name (n : list Z) : Prop :=
  exists c, n = [quote; c; quote] /\ ~ space c.
Definition plain_name (n : list Z) : Prop := basic_name n \/ char_name n.

(* A way of writing the name [n]: a basic identifier in any case, a character literal as it
   is, with white space around. *)
Definition spelling (n s : list Z) : Prop :=
  exists pre w post,
    s = pre ++ w ++ post /\ Forall space pre /\ Forall space post /\
    ((basic_name n /\ same_but_case w n) \/ (char_name n /\ w = n)).

(* [w] is [s] with white space taken out. *)
Inductive squeezed : list Z -> list Z -> Prop :=
| sq_nil : squeezed [] []
| sq_space : forall c s w, space c -> squeezed s w -> squeezed (c :: s) w
| sq_keep : forall c s w, ~ space c -> squeezed s w -> squeezed (c :: s) (c :: w).

(* A real literal: sign, integer part, fraction, exponent. *)
Record real_text := RT {
  rt_sign : list Z; rt_int : list Z; rt_point : bool; rt_frac : list Z;
  rt_exp : option (Z * list Z * list Z)   (* letter, sign, digits *)
}.
Definition real_string (r : real_text) : list Z :=
  rt_sign r ++ rt_int r ++ (if rt_point r then 46 :: rt_frac r else []) ++
  match rt_exp r with
  | None => []
  | Some (e, sg, ds) => e :: sg ++ ds
  end.
Definition exponent (r : real_text) : Z :=
  match rt_exp r with
  | None => 0
  | Some (_, sg, ds) => match sg with [45] => - decimal 0 ds | _ => decimal 0 ds end
  end.
Definition well_formed (r : real_text) : Prop :=
  (rt_sign r = [] \/ rt_sign r = [45] \/ rt_sign r = [43]) /\
  Forall digit (rt_int r) /\ Forall digit (rt_frac r) /\
  (rt_point r = false -> rt_frac r = []) /\
  rt_int r ++ rt_frac r <> [] /\
  match rt_exp r with
  | None => True
  | Some (e, sg, ds) =>
      (e = 69 \/ e = 101) /\ (sg = [] \/ sg = [45] \/ sg = [43]) /\
      Forall digit ds /\ ds <> []
  end.
Definition real_digits (r : real_text) : list Z := rt_int r ++ rt_frac r.
