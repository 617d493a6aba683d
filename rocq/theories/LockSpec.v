(* What users of locks rely on (C37, C38), in terms of calls: which thread is
   inside nvc_lock, inside nvc_unlock, asleep, or between calls. *)
From Coq Require Import List Arith.
From Verif Require Import Base LockModel.
Import ListNotations.

(* The thread is executing nvc_lock on [l]. *)
Definition locking (p : pc) (l : nat) : Prop :=
  match p with
  | LFast k | LSpin k _ _ | LMark k | LTry k _ | LReload k
  | KMutex k | KCheck k | KUnlock k | KSleep k | KWoken k | KDec k => k = l
  | _ => False
  end.
(* The thread is executing nvc_unlock on [l]. *)
Definition unlocking (p : pc) (l : nat) : Prop :=
  match p with
  | UFast k | UAssert k | UMutex k | USet k | UUnlock k | UBcast k => k = l
  | _ => False
  end.
(* The thread sleeps inside nvc_lock on [l] and takes no step by itself. *)
Definition asleep (p : pc) (l : nat) : Prop := p = KSleep l.
(* A thread that is not going to take a step: between calls or asleep. *)
Definition resting (p : pc) : Prop := p = Idle \/ exists l, asleep p l.
