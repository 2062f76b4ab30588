(** numpy's elementwise operators on one-dimensional arrays. *)
From Coq Require Import List Arith.
From Verif Require Import Arith Vec.
Import ListNotations.

Section Broadcast.
Context {A : Arith}.

(** [f u v]: equal lengths, or one array of length one, which is stretched;
    otherwise ValueError *)
Definition bcast2 (f : num A -> num A -> num A) (u v : vec A) : res (vec A) :=
  if Nat.eqb (length u) (length v) then Ok (map2 f u v) else
  match u, v with
  | [a], _ => Ok (map (f a) v)
  | _, [b] => Ok (map (fun a => f a b) u)
  | _, _ => Err ValueError
  end.

(** [u -= v]: only the right-hand side can be stretched *)
Definition isub (u v : vec A) : res (vec A) :=
  if Nat.eqb (length u) (length v) then Ok (vsub u v) else
  match v with
  | [b] => Ok (map (fun a => asub a b) u)
  | _ => Err ValueError
  end.
End Broadcast.
