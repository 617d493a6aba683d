(* Specification of finite maps and sets with decidable key equality. *)
From Coq Require Import List Arith.
From Verif Require Import HashModel.
Import ListNotations.

Section Spec.
Context {K V : Type} (eqb : K -> K -> bool).

Definition fmap := K -> option V.
Definition fm_set (m : fmap) (k : K) (v : option V) : fmap :=
  fun k' => if eqb k k' then v else m k'.

(* [l] lists each live pair of [m] exactly once. *)
Definition lists_map (m : fmap) (l : list (K * V)) : Prop :=
  NoDup (map fst l) /\ forall k v, In (k, v) l <-> m k = Some v.

(* State: the map and the keys that were ever put.  The boolean result of a
   put (only the pointer hash has one) is true for a live key and false for a
   key never put; for a key that was deleted it is unspecified. *)
Inductive map_step : (fmap * (K -> bool)) -> map_op K V -> map_out K V ->
                     (fmap * (K -> bool)) -> Prop :=
| ms_put_bool m e k v b :
    (m k <> None -> b = true) -> (e k = false -> b = false) ->
    map_step (m, e) (MapPut k v) (MpBool b)
             (fm_set m k v, fun k' => if eqb k k' then true else e k')
| ms_put m e k v :
    map_step (m, e) (MapPut k v) MpUnit
             (fm_set m k v, fun k' => if eqb k k' then true else e k')
| ms_delete m e k :
    map_step (m, e) (MapDelete k) MpUnit (fm_set m k None, e)
| ms_get m e k : map_step (m, e) (MapGet k) (MpVal (m k)) (m, e)
| ms_iter m e l : lists_map m l -> map_step (m, e) MapIter (MpPairs l) (m, e).

Inductive map_run : (fmap * (K -> bool)) -> list (map_op K V) -> list (map_out K V) ->
                    (fmap * (K -> bool)) -> Prop :=
| mr_nil s : map_run s [] [] s
| mr_cons s s1 s2 op ops o os :
    map_step s op o s1 -> map_run s1 ops os s2 -> map_run s (op :: ops) (o :: os) s2.

(* Sets. *)
Fixpoint set_outs (s : K -> bool) (ops : list (set_op K)) : list (option bool) :=
  match ops with
  | [] => []
  | SetInsert k :: ops' => None :: set_outs (fun k' => if eqb k k' then true else s k') ops'
  | SetContains k :: ops' => Some (s k) :: set_outs s ops'
  end.

Definition empty_map : fmap := fun _ => None.
Definition no_keys : K -> bool := fun _ => false.
End Spec.

(* Operations ihash_t supports. *)
Definition put_or_get {K V} (op : map_op K V) : Prop :=
  match op with MapPut _ _ | MapGet _ => True | _ => False end.
