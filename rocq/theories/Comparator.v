(** Model of engines/yayamls/ast/astcmp/comparator.go: two goroutines walk a tree each and send its nodes
    over unbuffered channels, the calling goroutine receives from both in turn. *)
From Verif Require Import Base Ast.
Local Open Scope nat_scope.

(* Text() of the nodes that implement ast.Texter (node.go 244, 266, 288, 361) *)
Definition texter (n : node) : option text :=
  match n with NTag s | NAnchor s | NAlias s | NText s _ => Some s | _ => None end.

Definition ntype_eqb (a b : ntype) : bool :=
  match a, b with
  | InvalidType, InvalidType | DocumentType, DocumentType | ContentType, ContentType | MappingType, MappingType
  | MappingEntryType, MappingEntryType | SequenceType, SequenceType | CommentType, CommentType
  | DirectiveType, DirectiveType | TagType, TagType | AnchorType, AnchorType | AliasType, AliasType
  | StreamType, StreamType | DocumentPrefixType, DocumentPrefixType | DocumentSuffixType, DocumentSuffixType
  | IndentType, IndentType | PropertiesType, PropertiesType | BlockHeaderType, BlockHeaderType
  | TextType, TextType | NullType, NullType => true
  | _, _ => false
  end.

(* comparator.go 51-68: compareNodes; a receive from a closed channel gives nil *)
Definition compare_nodes (first second : option node) : bool :=
  match first, second with
  | Some f, Some s =>
      match node_type f, node_type s with
      | Some tf, Some ts =>
          ntype_eqb tf ts &&
          match texter f with
          | Some x => match texter s with Some y => text_eqb x y | None => false end
          | None => true
          end
      | _, _ => false
      end
  | _, _ => false
  end.

Definition is_nil (n : node) : bool := match n with NNil => true | _ => false end.
(** what Accept does: nothing (node.go 168, 307, 415), or send the node and go on with its children
    (comparator.go 74-146; nil properties, contents, keys and so on are left out, nil list elements are not) *)
Inductive accepts := Silent | Sends (children : list node) | Crash.
Definition accept (n : node) : accepts :=
  let present := filter (fun n => negb (is_nil n)) in
  match n with
  | NNil => Crash
  | NBasic _ | NBlockHeader _ _ | NIndent _ => Silent
  | NStream l | NSequence l | NMapping l => Sends l
  | NContent a b => Sends (present [a; b])
  | NEntry a b => Sends (present [a; b])
  | NProperties tag anchor => Sends (present [anchor; tag])
  | NTag _ | NAnchor _ | NAlias _ | NText _ _ | NNull => Sends []
  end.

(** a walking goroutine: the nodes still to be visited; its channel is closed and it has ended; it has
    called a method of nil *)
Inductive walker := Walking (todo : list node) | Ended | Crashed.
(** the goroutine of Equal: about to receive from the first channel, from the second one, in the two
    loops that empty the channels, or back at the caller *)
Inductive caller :=
| Recv1 | Recv2 (got : option node) | Drain1 (result : bool) | Drain2 (result : bool) | Returned (result : bool).
Record cstate := mkC { c_main : caller; c_first : walker; c_second : walker }.

(** steps of a walker by itself *)
Inductive walks : walker -> walker -> Prop :=
| w_silent n l : accept n = Silent -> walks (Walking (n :: l)) (Walking l)
| w_crash n l : accept n = Crash -> walks (Walking (n :: l)) Crashed
| w_close : walks (Walking []) Ended.                                   (* 24-25, 28-29 *)

(** a receive: of a node the walker is sending, or from the closed channel *)
Inductive gives : walker -> option node -> walker -> Prop :=
| g_send n cs l : accept n = Sends cs -> gives (Walking (n :: l)) (Some n) (Walking (cs ++ l))
| g_closed : gives Ended None Ended.

(* comparator.go 34-44: after both receives *)
Definition after_receives (a b : option node) : caller :=
  match a, b with
  | None, None => Drain1 true
  | _, _ => if compare_nodes a b then Recv1 else Drain1 false
  end.

(** the scheduler picks any goroutine that can go on *)
Inductive cstep : cstate -> cstate -> Prop :=
| c_walk1 m a a' b : walks a a' -> cstep (mkC m a b) (mkC m a' b)
| c_walk2 m a b b' : walks b b' -> cstep (mkC m a b) (mkC m a b')
| c_recv1 a x a' b : gives a x a' -> cstep (mkC Recv1 a b) (mkC (Recv2 x) a' b)               (* 34 *)
| c_recv2 x a b y b' : gives b y b' -> cstep (mkC (Recv2 x) a b) (mkC (after_receives x y) a b') (* 35-42 *)
| c_drain1 r a n a' b : gives a (Some n) a' -> cstep (mkC (Drain1 r) a b) (mkC (Drain1 r) a' b)  (* 44 *)
| c_drained1 r a b : gives a None a -> cstep (mkC (Drain1 r) a b) (mkC (Drain2 r) a b)
| c_drain2 r a b n b' : gives b (Some n) b' -> cstep (mkC (Drain2 r) a b) (mkC (Drain2 r) a b')  (* 46 *)
| c_drained2 r a b : gives b None b -> cstep (mkC (Drain2 r) a b) (mkC (Returned r) a b).

(* comparator.go 17-19: without goroutines if one of the trees is nil *)
Definition c_start (first second : node) : cstate :=
  if is_nil first || is_nil second then mkC (Returned (is_nil first && is_nil second)) Ended Ended
  else mkC Recv1 (Walking [first]) (Walking [second]).

Inductive csteps : nat -> cstate -> cstate -> Prop :=
| cs_refl s : csteps 0 s s
| cs_step n s s1 s2 : cstep s s1 -> csteps n s1 s2 -> csteps (S n) s s2.
