(* What it means that a design unit survives being saved and loaded. *)

From Coq Require Import ZArith NArith List Bool Arith.
From Verif Require Import Base NumberModel NumberProps CoverModel CoverFileSpec ObjModel ObjGraphModel ObjGraphSpec ObjFileModel.
Import ListNotations.
Local Open Scope nat_scope.

Definition members (l : option (list (option oref))) : list (option oref) :=
  match l with Some l => l | None => [] end.

(* The same value, where `tr` says which object of the reader stands for one of the
   writer.  An array without members may become no array. *)
Definition same_value (tr : oref -> oref) (a b : item) : Prop :=
  match a, b with
  | VObject x, VObject y => y = option_map tr x
  | VArray x, VArray y => members y = map (option_map tr) (members x)
  | VObject _, _ | VArray _, _ => False
  | _, _ => b = a
  end.

Record same_object (rg : registry) (tr : oref -> oref) (fa fb : list (list N)) (o o' : object) : Prop := {
  so_tag : o_tag o' = o_tag o;
  so_kind : o_kind o' = o_kind o;
  so_loc : c_loc (class_of rg (o_tag o)) = true -> same_place fa fb (o_loc o) (o_loc o');
  so_items : forall bit it, bit < 64 -> lookup_item (obj_has rg o) (o_items o) bit = Ok it ->
    exists it', lookup_item (obj_has rg o') (o_items o') bit = Ok it' /\ same_value tr it it' }.

(* ---- what a unit must be like ---- *)

(* The position of an object in the file of its unit: where it was moved to when the
   unit was frozen, and its own index if the unit came from a file; 0x0fffffff for a
   removed object. *)
Definition file_position (a : arena) (i : nat) : N :=
  match a_fwd a with
  | None => N.of_nat i
  | Some fwd => match find (fun p => fst p =? i) fwd with
                | Some (_, Some w) => N.of_nat w
                | _ => 268435455
                end
  end.

(* Positions are below 2^28: arenas have at most 4 GB. *)
Definition ref_fits (ws : list arena) (r : oref) : Prop :=
  fst r <> 0 /\ exists a, nth_error ws (fst r) = Some a /\ (file_position a (snd r) < 2 ^ 28)%N.

Definition value_fits (ok : ident -> Prop) (ws : list arena) (it : item) : Prop :=
  match it with
  | VIdent i => forall x, i = Some x -> ok x
  | VObject r => forall x, r = Some x -> ref_fits ws x
  | VArray l => (N.of_nat (length (members l)) < 2 ^ 32)%N /\
                forall x, In (Some x) (members l) -> ref_fits ws x
  | VInt z => int64 z
  | VDouble d => (d < 2 ^ 64)%N
  | VText t => exists bs, t = Some bs /\ Forall (fun b => 0 < b < 256)%N bs /\ (N.of_nat (length bs) <= 61440)%N
  | VNumber n => exists x, n = Some x /\ well_formed x
  end.

Record object_fits (rg : registry) (ok : ident -> Prop) (ws : list arena) (files : list (list N)) (o : object) : Prop := {
  of_tag : o_tag o < 4;
  of_kind : o_kind o < length (c_has (class_of rg (o_tag o)));
  of_kinds : (N.of_nat (length (c_has (class_of rg (o_tag o)))) < 16383)%N;
  of_loc : c_loc (class_of rg (o_tag o)) = true -> loc_fits files (o_loc o);
  of_items : forall bit it, bit < 64 -> lookup_item (obj_has rg o) (o_items o) bit = Ok it ->
    value_fits ok ws it }.

Definition objects_of (ws : list arena) : heap := map a_objs ws.

(* An arena with a name. *)
Definition goes_by (rg : registry) (unnamed : ident) (a : arena) (n : option ident) : Prop :=
  name_of unnamed rg (a_objs a) = Ok n.

Record unit_fits (unnamed : ident) (rg : registry) (ok : ident -> Prop) (ws : list arena) (files : list (list N))
    (key : nat) (a : arena) : Prop := {
  uf_arenas : (N.of_nat (length ws) < 65535)%N;
  uf_self : nth_error ws key = Some a;
  uf_key : key <> 0;
  uf_sound : sound rg (objects_of ws);
  uf_sized : sized rg (objects_of ws);
  (* it was frozen, and has an object of a root kind *)
  uf_gc : exists fwd, gc rg (objects_of ws) key = Ok (fwd, a_live a) /\ a_fwd a = Some fwd;
  uf_root : exists o, In o (a_objs a) /\ In (o_kind o) (c_roots (class_of rg (o_tag o)));
  uf_size : (N.of_nat (a_live a) < 2 ^ 27)%N;
  uf_flags : (a_flags a < 2 ^ 32)%N;
  uf_deps : NoDup (key :: a_deps a);
  uf_named : forall k, In k (key :: a_deps a) -> k <> 0 /\ exists d n, nth_error ws k = Some d /\
    goes_by rg unnamed d n /\ n <> Some unnamed /\ (forall i, n = Some i -> ok i) /\ (a_std d < 2 ^ 32)%N /\ (a_checksum d < 2 ^ 32)%N;
  uf_objects : forall i o, lookup rg (objects_of ws) (key, i) = Some o -> needed rg (objects_of ws) key i ->
    object_fits rg ok ws files o;
  uf_few : (Z.of_nat (1 + length (a_deps a) + 64 * length (a_objs a)) <= 2 ^ 31)%Z }.

(* The loader adds arenas and gives one of the name. *)
Definition loads (rg : registry) (unnamed : ident) (loader : list arena -> ident -> option (list arena * nat)) : Prop :=
  forall ws d ws' k, loader ws d = Some (ws', k) ->
    (exists more, ws' = ws ++ more) /\ k <> 0 /\ exists a, nth_error ws' k = Some a /\ goes_by rg unnamed a (Some d).

(* Where the object of the writer is in the reader, given the keys: at its position
   in the file. *)
Definition moved (ws : list arena) (tk : nat -> nat) (r : oref) : oref :=
  (tk (fst r), match nth_error ws (fst r) with Some a => N.to_nat (file_position a (snd r)) | None => 0 end).

(* The arenas of the reader: the first is a dummy. *)
Definition arenas (rws : list arena) : list arena := match rws with [] => [arena0] | _ => rws end.

(* The unit of the reader for a dependency: same name, standard and checksum. *)
Definition same_unit (rg : registry) (unnamed : ident) (ws ws' : list arena) (k m : nat) : Prop :=
  m <> 0 /\ exists d d' n, nth_error ws k = Some d /\ nth_error ws' m = Some d' /\
    goes_by rg unnamed d n /\ goes_by rg unnamed d' n /\ a_std d' = a_std d /\ a_checksum d' = a_checksum d.

(* What the file says about a dependency. *)
Definition described (rg : registry) (unnamed : ident) (ws : list arena) (k : nat) (x : option ident * N * N) : Prop :=
  exists d, nth_error ws k = Some d /\ goes_by rg unnamed d (fst (fst x)) /\
    snd (fst x) = a_std d /\ snd x = a_checksum d.

(* In the reader, the first arena with a name. *)
Definition first_called (rg : registry) (unnamed : ident) (ws : list arena) (n : option ident) (k : nat) : Prop :=
  1 <= k /\ (exists a, nth_error ws k = Some a /\ goes_by rg unnamed a n) /\
  forall j a, 1 <= j < k -> nth_error ws j = Some a -> exists m, goes_by rg unnamed a m /\ m <> n.

Definition none_called (rg : registry) (unnamed : ident) (ws : list arena) (n : option ident) : Prop :=
  forall j a, 1 <= j -> nth_error ws j = Some a -> exists m, goes_by rg unnamed a m /\ m <> n.

(* All dependencies (name, standard, checksum) are in memory or can be loaded, in
   order. *)
Inductive available (rg : registry) (unnamed : ident) (loader : list arena -> ident -> option (list arena * nat))
  : list arena -> list (option ident * N * N) -> list arena -> list nat -> Prop :=
| av_none ws : available rg unnamed loader ws [] ws []
| av_here ws n s c rest k a ws' ks :
    first_called rg unnamed ws n k -> nth_error ws k = Some a -> a_std a = s -> a_checksum a = c ->
    available rg unnamed loader ws rest ws' ks ->
    available rg unnamed loader ws ((n, s, c) :: rest) ws' (k :: ks)
| av_load ws d s c rest k a ws1 ws' ks :
    none_called rg unnamed ws (Some d) -> loader ws d = Some (ws1, k) -> nth_error ws1 k = Some a ->
    a_std a = s -> a_checksum a = c ->
    available rg unnamed loader ws1 rest ws' ks ->
    available rg unnamed loader ws ((Some d, s, c) :: rest) ws' (k :: ks).
