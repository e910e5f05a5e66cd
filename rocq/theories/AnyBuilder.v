(** Model of the two value builders: engines/yayamls/decode/any.go and engines/goyaml/decode/any.go
    (type anyBuilder).  The builders are textually the same up to the access to nodes; this file is
    generic in that access, the engines' views are given in YReader.v and GReader.v. *)
From Verif Require Import Base Schema Values Writer.
Local Open Scope nat_scope.

Section Any.
  Context {Nd K : Type}.

  (** one entry of a mapping: a node to visit (yayamls), or a key with its value (goyaml; a missing
      last value is replaced by a null scalar) *)
  Inductive aentry := AWhole (n : Nd) | APair (k : Nd) (v : option Nd).

  (** What visitNode does with a node. *)
  Inductive aview :=
  | AVSkip                                (* not a valid node, a tag, a basic node, kind 0 *)
  | AVStream                              (* an error *)
  | AVAnchor (name : text)
  | AVAlias (target : Nd + text)          (* the node it stands for, or the unknown name *)
  | AVScalar (s : text) (null : bool)     (* text node; [null]: schema.IsNull of it *)
  | AVNullNode
  | AVSeq (l : list Nd)
  | AVMap (l : list aentry)
  | AVEntry (k v : Nd)
  | AVProps (anchor : Nd)
  | AVContent (props content : Nd)
  | AVInto (n : Nd)                       (* document node: its first child *)
  | AVPanic.                              (* document node without children *)

  Record aaccess := mkAccess {
    ac_view : K -> Nd -> aview;
    ac_store : text -> K -> K;            (* anchors.go 19-22 *)
    ac_bind : Nd -> K -> K                (* anchors.go 24-29 *)
  }.
  Context (ac : aaccess) (o : oracle).

  (* any.go 11-22 *)
  Record abuilder := mkAB {
    ab_value : value;
    ab_extract_string : bool;
    ab_string : text;
    ab_extract_merge : bool;
    ab_merge : option (list (text * value));
    ab_keep : K;
    ab_errors : list rerr
  }.

  Definition ab_new (k : K) : abuilder := mkAB VNil false [] false None k [].

  Definition ab_set_value (v : value) (a : abuilder) : abuilder :=
    mkAB v (ab_extract_string a) (ab_string a) (ab_extract_merge a) (ab_merge a) (ab_keep a) (ab_errors a).
  Definition ab_set_string (s : text) (a : abuilder) : abuilder :=
    mkAB (ab_value a) (ab_extract_string a) s (ab_extract_merge a) (ab_merge a) (ab_keep a) (ab_errors a).
  Definition ab_set_flags (es em : bool) (a : abuilder) : abuilder :=
    mkAB (ab_value a) es (ab_string a) em (ab_merge a) (ab_keep a) (ab_errors a).
  Definition ab_set_merge (m : option (list (text * value))) (a : abuilder) : abuilder :=
    mkAB (ab_value a) (ab_extract_string a) (ab_string a) (ab_extract_merge a) m (ab_keep a) (ab_errors a).
  Definition ab_set_keep (k : K) (a : abuilder) : abuilder :=
    mkAB (ab_value a) (ab_extract_string a) (ab_string a) (ab_extract_merge a) (ab_merge a) k (ab_errors a).
  Definition ab_error (e : rerr) (a : abuilder) : abuilder :=
    mkAB (ab_value a) (ab_extract_string a) (ab_string a) (ab_extract_merge a) (ab_merge a) (ab_keep a)
         (ab_errors a ++ [e]).
  Definition ab_ok (a : abuilder) : bool := match ab_errors a with [] => true | _ => false end.

  (** yayamls any.go 158-180, goyaml any.go 137-162: a failed conversion stores the zero value *)
  Definition from_text (s : text) (null : bool) (a : abuilder) : abuilder :=
    let conv {A} (r : option A) (mk : A -> value) (zero : value) (e : expecter) :=
      match r with Some x => ab_set_value (mk x) a | None => ab_error (RConvert e s) (ab_set_value zero a) end in
    if null then ab_set_value VNil a
    else if sc_is_timestamp o s then conv (o_time o s) VTime (VTime (o_time_zero o)) ETimestamp
    else if sc_is_unsigned s then conv (sc_to_unsigned s 64) VUint (VUint 0) EInteger
    else if sc_is_integer s then conv (sc_to_integer s 64) VInt (VInt 0) EInteger
    else if sc_is_float s then conv (o_float o s 64%N) VFloat (VFloat 0) EFloat
    else if sc_is_boolean s then conv (sc_to_boolean s) VBool (VBool false) EBoolean
    else ab_set_value (VStr s) a.

  (** yayamls any.go 57-63 and 139-145, goyaml any.go 137-140 *)
  Definition visit_scalar (s : text) (null : bool) (a : abuilder) : abuilder :=
    if ab_extract_string a then ab_set_string s a else from_text s null a.

  (** The last lines of visiting a mapping: yayamls any.go 102-109, goyaml any.go 100-107 *)
  Definition finish_map (m : list (text * value)) (a : abuilder) : abuilder :=
    if ab_extract_merge a then ab_set_merge (Some m) a
    else if ab_extract_string a then ab_set_string (o_sprint o (VMap m)) a
    else ab_set_value (VMap m) a.
  (** yayamls any.go 79-85, goyaml any.go 63-69 *)
  Definition finish_seq (es : bool) (l : list value) (a : abuilder) : abuilder :=
    let a := ab_set_flags es (ab_extract_merge a) a in
    if es then ab_set_string (o_sprint o (VSeq l)) a else ab_set_value (VSeq l) a.

  (** any.go 93-100 (yayamls), 90-97 (goyaml): after an entry *)
  Definition after_entry (m : list (text * value)) (a : abuilder) : list (text * value) * abuilder :=
    if ab_ok a then
      match ab_merge a with
      | None => (map_set (ab_string a) (ab_value a) m, a)
      | Some mm => (merge_maps m mm, ab_set_merge None a)
      end
    else (m, a).

  (** The recursion.  Aliases may lead back to a node that is being visited, so it takes fuel. *)
  Fixpoint any_visit (fuel : nat) (n : Nd) (a : abuilder) {struct fuel} : outcome abuilder :=
    match fuel with
    | O => NoFuel
    | S f =>
        (* processMappingPair: yayamls any.go 120-137, goyaml any.go 118-135 *)
        let pair (k : Nd) (v : option Nd) (a : abuilder) : outcome abuilder :=
          let es := ab_extract_string a in
          let em := ab_extract_merge a in
          obind (any_visit f k (ab_set_flags true em a)) (fun a =>
          let key := ab_string a in
          let em' := if text_eqb key merge_key then true else ab_extract_merge a in
          let a := ab_set_flags false em' a in
          obind (match v with
                 | Some v => any_visit f v a
                 | None => Done (visit_scalar [] true a)
                 end) (fun a =>
          Done (ab_set_flags es em (ab_set_string key a)))) in
        let seq := fix seq (l : list Nd) (acc : list value) (a : abuilder) : outcome (list value * abuilder) :=
          match l with
          | [] => Done (acc, a)
          | x :: l' =>
              obind (any_visit f x a) (fun a =>
              seq l' (if ab_ok a then acc ++ [ab_value a] else acc) a)
          end in
        let entries := fix entries (l : list aentry) (m : list (text * value)) (a : abuilder)
            : outcome (list (text * value) * abuilder) :=
          match l with
          | [] => Done (m, a)
          | e :: l' =>
              obind (match e with AWhole x => any_visit f x a | APair k v => pair k v a end) (fun a =>
              let (m, a) := after_entry m a in
              entries l' m a)
          end in
        match ac_view ac (ab_keep a) n with
        | AVSkip => Done a
        | AVStream => Done (ab_error RStreamInAny a)
        | AVAnchor name => Done (ab_set_keep (ac_store ac name (ab_keep a)) a)
        | AVAlias (inl m) => any_visit f m a
        | AVAlias (inr name) => Done (ab_error (RAlias name) a)
        | AVScalar s null => Done (visit_scalar s null a)
        | AVNullNode =>
            Done (if ab_extract_string a then ab_set_string [110%N; 117%N; 108%N; 108%N] a else ab_set_value VNil a)
        | AVSeq l =>
            let es := ab_extract_string a in
            obind (seq l [] (ab_set_flags false (ab_extract_merge a) a)) (fun r =>
            Done (finish_seq es (fst r) (snd r)))
        | AVMap l =>
            obind (entries l [] a) (fun r => Done (finish_map (fst r) (snd r)))
        | AVEntry k v => pair k (Some v) a
        | AVProps anchor => any_visit f anchor a
        | AVContent props content =>
            obind (any_visit f props a) (fun a =>
            any_visit f content (ab_set_keep (ac_bind ac content (ab_keep a)) a))
        | AVInto m => any_visit f m a
        | AVPanic => Panics
        end
    end.

  (* any.go 30-36: the value or the errors, and the keeper afterwards *)
  Definition extract_any (fuel : nat) (k : K) (n : Nd) : outcome ((value + list rerr) * K) :=
    obind (any_visit fuel n (ab_new k)) (fun a =>
    Done (match ab_errors a with [] => inl (ab_value a) | es => inr es end, ab_keep a)).
End Any.
Arguments aentry : clear implicits. Arguments aview : clear implicits. Arguments aaccess : clear implicits.
Arguments abuilder : clear implicits.
