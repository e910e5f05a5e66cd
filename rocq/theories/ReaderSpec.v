(** Specifications about decoding (independent of the reader's state). *)
From Verif Require Import Base Schema Values Ast Writer Reader ReadSpec GBuilder GReader.
Local Open Scope nat_scope.

Section Spec.
  Context {Nd : Type} (o : oracle).

  (** After the errors [es] have been reported: a call returns the zero value, Error the same errors.
      (What collection states answer is not restricted.) *)
  Definition stuck_reply (es : list rerr) (q : request) (p : reply Nd) : Prop :=
    match q with
    | QCall DError => p = PAnswer (AErrors es)
    | QCall c => p = PAnswer (zero_answer o c)
    | _ => True
    end.
End Spec.

(** The requests [qs] are answered by [ps], [h] collections are opened; afterwards there is no error,
    and one more read finds nothing: it returns the zero value and reports the end of the stream. *)
Definition done_reading {Nd K} (en : engine Nd K) (o : oracle) (r : rstate Nd K)
    (qs : list request) (ps : list (reply Nd)) (h : nat) : Prop :=
  exists rs hs F, map mask rs = ps /\ length hs = h /\ forall f, F <= f -> exists r',
    do_requests en o f qs (r, []) = Done (rs, (r', hs))
    /\ do_call en o f DError r' = Done (AErrors [], r')
    /\ forall c, reading c = true -> exists F', forall f', F' <= f' -> exists r'',
         do_call en o f' c r' = Done (zero_answer o c, r'')
         /\ do_call en o f' DError r'' = Done (AErrors [REnd], r'').

(** ** the tree a yayamls node holds (no aliases; tags and anchors do not matter) *)
Definition leaf_ok (n : node) : bool := match n with NTag _ | NAnchor _ | NNil => true | _ => negb (valid_node n) end.
Definition props_ok (n : node) : bool :=
  match n with NProperties t a => leaf_ok t && leaf_ok a | _ => negb (valid_node n) end.
Definition plain_quoting (q : quoting) : bool := match q with UnknownQuoting | AbsentQuoting => true | _ => false end.

Fixpoint y_tree (n : node) : option tree :=
  match n with
  | NNull => Some TNull
  | NText s q => Some (if plain_quoting q && sc_is_null s then TNull else TText s)
  | NContent p c => if props_ok p then y_tree c else None
  | NSequence l =>
      option_map TSeq ((fix go (l : list node) : option (list tree) :=
        match l with
        | [] => Some []
        | x :: l' => match y_tree x, go l' with Some t, Some ts => Some (t :: ts) | _, _ => None end
        end) l)
  | NMapping l =>
      option_map TMap ((fix go (l : list node) : option (list (tree * tree)) :=
        match l with
        | [] => Some []
        | NEntry k v :: l' =>
            match y_tree k, y_tree v, go l' with
            | Some tk, Some tv, Some ts => Some ((tk, tv) :: ts)
            | _, _, _ => None
            end
        | _ :: _ => None
        end) l)
  | _ => None
  end.

(** ** the tree a node of a yaml.v3 graph holds (no aliases) *)
Inductive g_tree (g : graph) : gref -> tree -> Prop :=
| gt_null i c : nth_error g i = Some c -> x_kind c = KScalar -> g_is_null c = true -> g_tree g (Some i) TNull
| gt_text i c : nth_error g i = Some c -> x_kind c = KScalar -> g_is_null c = false -> g_tree g (Some i) (TText (x_value c))
| gt_seq i c l : nth_error g i = Some c -> x_kind c = KSequence -> g_trees g (x_content c) l -> g_tree g (Some i) (TSeq l)
| gt_map i c l : nth_error g i = Some c -> x_kind c = KMapping -> g_entries g (x_content c) l -> g_tree g (Some i) (TMap l)
with g_trees (g : graph) : list gref -> list tree -> Prop :=
| gts_nil : g_trees g [] []
| gts_cons n ns t l : g_tree g n t -> g_trees g ns l -> g_trees g (n :: ns) (t :: l)
with g_entries (g : graph) : list gref -> list (tree * tree) -> Prop :=
| ge_nil : g_entries g [] []
| ge_cons k v ns tk tv l : g_tree g k tk -> g_tree g v tv -> g_entries g ns l ->
    g_entries g (k :: v :: ns) ((tk, tv) :: l).
