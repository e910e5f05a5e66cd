(** Programs that use a Decoder: loops over collections, nested in any way. *)
From Verif Require Import Base Values Reader GenCode CursorSpec.
Local Open Scope nat_scope.

(** every call but TryNull, AddError and Error is there to read something *)
Definition takes (c : call) : bool := match c with DTryNull | DError | DAddError _ => false | _ => true end.

(** [client A S b p]: [p] is a program with a result in [A].  It asks the collections in [S] and those it
    opens, it calls anything but Raw and Node, and each iteration of each of its loops reads at least
    once.  [b]: [p] itself reads at least once, whatever the answers are.  ([p] takes the fuel of its
    loops.) *)
Inductive client {Nd : Type} : forall A : Type, (nat -> Prop) -> bool -> (nat -> prog Nd A) -> Prop :=
| cl_ret A S v : client A S false (fun _ => Ret v)
| cl_call A S b c k : opening c = false -> usual (QCall c) = true ->
    (forall a, client A S b (fun f => k f a)) -> client A S (takes c || b) (fun f => Call c (k f))
| cl_open A S b c k : opening c = true ->
    (forall h, client A (fun i => S i \/ i = h) b (fun f => k f h)) -> client A S true (fun f => Open c (k f))
| cl_size A (S : nat -> Prop) b h k : S h -> (forall n, client A S b (fun f => k f n)) -> client A S b (fun f => Size h (k f))
| cl_more A (S : nat -> Prop) b h k : S h -> (forall n, client A S b (fun f => k f n)) -> client A S b (fun f => More h (k f))
| cl_add A S b e k : client A S b k -> client A S b (fun f => AddErr (Some e) (k f))
| cl_bind A B S b b' p k : client B S b p -> (forall v, client A S b' (fun f => k f v)) ->
    client A S (b || b') (fun f => bind (p f) (k f))
| cl_loop A (S : nat -> Prop) h cond body v : S h -> (forall v, client A S true (fun f => body f v)) ->
    client A S false (fun f => while f h cond (body f) v).
