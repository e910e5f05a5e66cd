(** Model of the two decoders: engines/yayamls/decode/reader.go and engines/goyaml/decode/reader.go
    (type ASTReader) with decode/iterator.go.  The two readers are textually the same up to the access
    to nodes, the anchors keeper and the draining of iterators on a fatal error; this file is generic
    in those ([engine]), the two engines are defined in YReader.v and GReader.v.  Line numbers are
    those of the yayamls file unless marked [g]. *)
From Verif Require Import Base Schema Values Writer.
Local Open Scope nat_scope.

(* reader.go 34-42 *)
Inductive concl := CUnknown | CMatch | CConsume | CDeny | CContinue.
Definition is_continue (c : concl) : bool := match c with CContinue => true | _ => false end.
Definition is_unknown (c : concl) : bool := match c with CUnknown => true | _ => false end.

(** expected.go: the inner switch on the previous conclusion, and the two most frequent results *)
Definition after (prev : concl) (l : list concl) (yes no : concl * bool) : concl * bool :=
  if existsb (fun c => match c, prev with
                       | CUnknown, CUnknown | CMatch, CMatch | CConsume, CConsume
                       | CDeny, CDeny | CContinue, CContinue => true
                       | _, _ => false end) l
  then yes else no.
Definition pass : concl * bool := (CContinue, false).
Definition no : concl * bool := (CDeny, false).

(** A returned CollectionState: a nil interface, the noop state (reader.go 98-104), or a size with an
    iterator (reader.go 89-96); iterators are shared pointers, numbered in order of creation *)
Inductive coll := CollNil | CollNoop | CollState (size iter : nat).

Section Reader.
  Context {Nd K : Type}.

  (** What visiting a node does *)
  Inductive visit :=
  | VComplex (children : list Nd) (size : nat) (bind : bool)
      (* a node with children; [bind]: BindToLatestAnchor before each child *)
  | VTexter (txt : text) (store : option text)   (* a node with a text; [store]: StoreAnchor first *)
  | VNullNode
  | VAlias (target : Nd + text)                  (* the node it stands for, or the unknown name *)
  | VInto (n : Nd)                               (* [g] 377-378: document node *)
  | VNothing                                     (* nodes whose Accept does nothing *)
  | VPanic.                                      (* nil, or a document node without children *)

  Record engine := mkEngine {
    en_visit : K -> Nd -> visit;
    en_process : K -> expecter -> Nd -> concl -> concl * bool;  (* conclusion; extract? *)
    en_nil : Nd -> bool;                         (* n == nil *)
    en_valid : Nd -> bool;                       (* ast.ValidNode / n != nil *)
    en_store : text -> K -> K;
    en_bind : Nd -> K -> K;
    en_drains : bool;                            (* [g] setFatalError 553-562 *)
    en_any : nat -> K -> Nd -> outcome ((value + list rerr) * K);
    en_raw : nat -> K -> Nd -> outcome ((text + list N) * K)
  }.
  Context (en : engine) (o : oracle).

  (* reader.go 73-77 *)
  Record point := mkPoint { pt_concl : concl; pt_node : Nd; pt_iter : option nat }.

  (* reader.go 17-32.  [r_route] has the current point first; [r_iters] holds what is left of each
     iterator.  The current expecter is an argument of the visiting functions. *)
  Record rstate := mkR {
    r_route : list point;
    r_iters : list (list Nd);
    r_last : concl;
    r_coll : coll;
    r_value : text;
    r_keep : K;
    r_multi : bool;
    r_fatal : option rerr;
    r_deny : option rerr;
    r_denies : list rerr
  }.

  Definition set_route (x : list point) (r : rstate) : rstate :=
    mkR x (r_iters r) (r_last r) (r_coll r) (r_value r) (r_keep r) (r_multi r) (r_fatal r) (r_deny r) (r_denies r).
  Definition set_iters (x : list (list Nd)) (r : rstate) : rstate :=
    mkR (r_route r) x (r_last r) (r_coll r) (r_value r) (r_keep r) (r_multi r) (r_fatal r) (r_deny r) (r_denies r).
  Definition set_last (x : concl) (r : rstate) : rstate :=
    mkR (r_route r) (r_iters r) x (r_coll r) (r_value r) (r_keep r) (r_multi r) (r_fatal r) (r_deny r) (r_denies r).
  Definition set_extracted (c : coll) (s : text) (r : rstate) : rstate :=
    mkR (r_route r) (r_iters r) (r_last r) c s (r_keep r) (r_multi r) (r_fatal r) (r_deny r) (r_denies r).
  Definition set_keep (x : K) (r : rstate) : rstate :=
    mkR (r_route r) (r_iters r) (r_last r) (r_coll r) (r_value r) x (r_multi r) (r_fatal r) (r_deny r) (r_denies r).
  Definition set_fatal (x : option rerr) (r : rstate) : rstate :=
    mkR (r_route r) (r_iters r) (r_last r) (r_coll r) (r_value r) (r_keep r) (r_multi r) x (r_deny r) (r_denies r).
  Definition set_deny (x : option rerr) (r : rstate) : rstate :=
    mkR (r_route r) (r_iters r) (r_last r) (r_coll r) (r_value r) (r_keep r) (r_multi r) (r_fatal r) x (r_denies r).
  Definition set_denies (x : list rerr) (r : rstate) : rstate :=
    mkR (r_route r) (r_iters r) (r_last r) (r_coll r) (r_value r) (r_keep r) (r_multi r) (r_fatal r) (r_deny r) x.

  (* reader.go 129-145, 572-582: NewASTReader and setAST.  [keep] is the (empty) keeper. *)
  Definition r_new (keep : K) (multi : bool) (tree : Nd) : rstate :=
    mkR [mkPoint CUnknown tree None] [] CUnknown CollNil [] keep multi None None [].

  (* reader.go 584-617 *)
  Definition current_node (r : rstate) : option Nd :=
    match r_route r with
    | [] => None
    | p :: _ => if en_nil en (pt_node p) then None else Some (pt_node p)
    end.
  Definition push_point (n : Nd) (r : rstate) : rstate := set_route (mkPoint CUnknown n None :: r_route r) r.
  Definition pop_point (r : rstate) : rstate := set_route (tl (r_route r)) r.
  Definition swap_point (p : point) (r : rstate) : rstate :=
    match r_route r with [] => r | _ :: rest => set_route (p :: rest) r end.

  (* iterator.go 7-23 *)
  Definition iter_left (i : nat) (r : rstate) : list Nd := nth i (r_iters r) [].
  Definition iter_empty (i : nat) (r : rstate) : bool := match iter_left i r with [] => true | _ => false end.
  Definition iters_set (l : list (list Nd)) (i : nat) (x : list Nd) : list (list Nd) :=
    match skipn i l with [] => l | _ :: rest => firstn i l ++ x :: rest end.

  (** [g] 553-562: every iterator on the route is read to its end *)
  Definition drain (r : rstate) : rstate :=
    set_iters (fold_left (fun its p => match pt_iter p with Some i => iters_set its i [] | None => its end)
                         (r_route r) (r_iters r)) r.
  Definition set_fatal_error (e : rerr) (r : rstate) : rstate :=
    set_fatal (Some e) (if en_drains en then drain r else r).

  Definition is_deny (e : rerr) : bool := match e with RDeny _ | RUserDeny _ => true | _ => false end.
  (* reader.go 623-629, [g] 527-533; errors.Is(err, ErrDenied) *)
  Definition append_err (e : rerr) (r : rstate) : rstate :=
    if r_multi r && is_deny e then set_denies (r_denies r ++ [e]) r
    else match r_fatal r with Some _ => r | None => set_fatal_error e r end.

  Definition has_fatal (r : rstate) : bool := match r_fatal r with Some _ => true | None => false end.

  (** The mutually recursive visiting functions as one function of a task: visitCurrentNode, visiting
      a node, and the loop over an iterator.  An alias may lead back to a node being visited, so the
      recursion takes fuel. *)
  Inductive task := TCurrent | TVisit (n : Nd) | TLoop (i : nat) (bind : bool).

  Section Visiting.
  Context (e : expecter).

  (** the end of visitTexterNode and processComplexPoint: the extraction *)
  Definition extracting (extract : bool) (c : coll) (s : text) (r : rstate) : rstate :=
    if extract then set_extracted c s r else r.

  (* reader.go 477-502; [n] is visited, [point] is the current point *)
  Definition visit_texter (n : Nd) (txt : text) (r : rstate) : outcome rstate :=
    match r_route r with
    | [] => Panics
    | p :: _ =>
        let '(c, x) := en_process en (r_keep r) e n (pt_concl p) in
        let r := set_last c r in
        let r := match c with
                 | CConsume | CContinue => pop_point r
                 | CMatch => r
                 | CDeny => set_deny (Some (RDeny e)) (swap_point (mkPoint c (pt_node p) (pt_iter p)) r)
                 | CUnknown => append_err RConclusion r
                 end in
        Done (extracting x CollNil txt r)
    end.

  (* reader.go 432-457: as above, but a denial is appended at once *)
  Definition visit_null (n : Nd) (r : rstate) : outcome rstate :=
    match r_route r with
    | [] => Panics
    | p :: _ =>
        let '(c, x) := en_process en (r_keep r) e n (pt_concl p) in
        let r := set_last c r in
        let r := match c with
                 | CConsume | CContinue => pop_point r
                 | CMatch => r
                 | CDeny => append_err (RDeny e) (swap_point (mkPoint c (pt_node p) (pt_iter p)) r)
                 | CUnknown => append_err RConclusion r
                 end in
        Done (extracting x CollNil [] r)
    end.

  Fixpoint run (fuel : nat) (t : task) (r : rstate) {struct fuel} : outcome rstate :=
    match fuel with
    | O => NoFuel
    | S f =>
        match t with
        | TCurrent =>                                                   (* reader.go 563-570 *)
            match current_node r with
            | None => Done (append_err REnd r)
            | Some n => run f (TVisit n) r
            end
        | TVisit n =>
            match en_visit en (r_keep r) n with
            | VPanic => Panics
            | VNothing => Done r
            | VInto m => run f (TVisit m) r
            | VAlias (inl m) => run f (TVisit m) (push_point m r)       (* reader.go 389-399 *)
            | VAlias (inr a) => Done (append_err (RAlias a) r)
            | VNullNode => visit_null n r
            | VTexter s None => visit_texter n s r
            | VTexter s (Some a) => visit_texter n s (set_keep (en_store en a (r_keep r)) r)
            | VComplex children size bind =>                            (* reader.go 370-475 *)
                match r_route r with
                | [] => Panics
                | p :: _ =>
                    let '(it, r) :=
                      if is_unknown (pt_concl p)
                      then (Some (length (r_iters r)), set_iters (r_iters r ++ [children]) r)
                      else (pt_iter p, r) in
                    (* processComplexPoint: reader.go 516-561 *)
                    let '(c, x) := en_process en (r_keep r) e (pt_node p) (pt_concl p) in
                    let r := swap_point (mkPoint c (pt_node p) it) (set_last c r) in
                    obind
                      (match c with
                       | CConsume => Done (pop_point r)
                       | CMatch => Done r
                       | CDeny => Done (set_deny (Some (RDeny e)) r)
                       | CContinue =>
                           match it with
                           | None => Panics
                           | Some i =>
                               obind (run f (TLoop i bind) r) (fun r =>
                               if iter_empty i r && is_continue (r_last r)
                               then run f TCurrent (pop_point r) else Done r)
                           end
                       | CUnknown => Done (append_err RConclusion r)
                       end) (fun r =>
                    match it with
                    | Some i => Done (extracting x (CollState size i) [] r)
                    | None => if x then Panics else Done r
                    end)
                end
            end
        | TLoop i bind =>                                               (* reader.go 535-548 *)
            if is_continue (r_last r) then
              match iter_left i r with
              | [] => Done r
              | n :: rest =>
                  let r := set_iters (iters_set (r_iters r) i rest) r in
                  let r := if bind then set_keep (en_bind en n (r_keep r)) r else r in
                  if en_valid en n then
                    obind (run f (TVisit n) (push_point n r)) (run f (TLoop i bind))
                  else run f (TLoop i bind) r
              end
            else Done r
        end
    end.
  End Visiting.

  (** ** The methods of the Decoder interface *)
  Inductive call :=
  | DTryNull | DInteger (bits : N) | DUnsigned (bits : N) | DBoolean | DFloat (bits : N) | DString
  | DTimestamp | DSequence | DMapping | DAny | DRaw | DNode | DSkip
  | DAddError (x : rerr) | DError.

  Inductive answer :=
  | AUnit | ABool (b : bool) | AInt (z : Z) | AUint (n : N) | AFloat (n : N) | AText (s : text)
  | ATime (n : N) | AColl (c : coll) | AAny (v : value) | ABytes (b : option text)
  | ANode (n : option Nd) | AErrors (l : list rerr).

  (** the value returned when there is nothing to return *)
  Definition zero_answer (c : call) : answer :=
    match c with
    | DTryNull | DBoolean => ABool false
    | DInteger _ => AInt 0
    | DUnsigned _ => AUint 0
    | DFloat _ => AFloat 0
    | DString => AText []
    | DTimestamp => ATime (o_time_zero o)
    | DSequence | DMapping => AColl CollNoop
    | DAny => AAny VNil
    | DRaw => ABytes None
    | DNode => ANode None
    | DSkip | DAddError _ => AUnit
    | DError => AErrors []
    end.

  Definition expecter_of (c : call) : expecter :=
    match c with
    | DTryNull => ENull
    | DInteger _ | DUnsigned _ => EInteger
    | DBoolean => EBoolean
    | DFloat _ => EFloat
    | DString => EString
    | DTimestamp => ETimestamp
    | DSequence => ESequence
    | DMapping => EMapping
    | DAny => EAny
    | DRaw | DNode => ERaw
    | _ => ESkip
    end.

  (** appendError(r.latestDenyError); r.latestDenyError = nil.  It is only reached with a denial or a
      fatal error; appending a nil error with a fatal error present does nothing. *)
  Definition take_deny (r : rstate) : rstate :=
    set_deny None (match r_deny r with Some d => append_err d r | None => r end).

  Definition denied (r : rstate) : bool := match r_deny r with Some _ => true | None => false end.

  (* v, err := schema.To...; if err != nil ... *)
  Definition converted {A} (c : call) (v : option A) (mk : A -> answer) (r : rstate) : outcome (answer * rstate) :=
    match v with
    | Some x => Done (mk x, r)
    | None => Done (zero_answer c, append_err (RConvert (expecter_of c) (r_value r)) r)
    end.

  (** what a method does after visiting: reader.go 147-368 *)
  Definition finish (fuel : nat) (c : call) (r : rstate) : outcome (answer * rstate) :=
    match c with
    | DTryNull =>                                                  (* 147-161 *)
        if has_fatal r then Done (ABool false, r)
        else match r_deny r with
             | Some _ => Done (ABool false, set_deny None r)
             | None => Done (ABool true, r)
             end
    | _ =>
        if denied r || has_fatal r then Done (zero_answer c, take_deny r)
        else
          match c with
          | DInteger bits => converted c (sc_to_integer (r_value r) bits) AInt r
          | DUnsigned bits => converted c (sc_to_unsigned (r_value r) bits) AUint r
          | DBoolean => converted c (sc_to_boolean (r_value r)) ABool r
          | DFloat bits => converted c (o_float o (r_value r) bits) AFloat r
          | DString => Done (AText (r_value r), r)
          | DTimestamp => converted c (o_time o (r_value r)) ATime r
          | DSequence | DMapping => Done (AColl (r_coll r), r)
          | DAny =>                                                (* 300-319 *)
              match r_route r with
              | [] => Done (AAny VNil, r)
              | p :: _ =>
                  obind (en_any en fuel (r_keep r) (pt_node p)) (fun x =>
                  let r := set_keep (snd x) r in
                  match fst x with
                  | inl v => Done (AAny v, pop_point r)
                  | inr es => Done (AAny VNil, append_err (RAny es) r)
                  end)
              end
          | DRaw =>                                                (* 321-340 *)
              match r_route r with
              | [] => Panics
              | p :: _ =>
                  obind (en_raw en fuel (r_keep r) (pt_node p)) (fun x =>
                  let r := set_keep (snd x) r in
                  match fst x with
                  | inl v => Done (ABytes (Some v), pop_point r)
                  | inr es => Done (ABytes None, append_err (RRaw es) r)
                  end)
              end
          | DNode =>                                               (* 342-356 *)
              Done (ANode (current_node r), pop_point r)
          | _ => Done (AUnit, r)                                   (* 358-368 *)
          end
    end.

  Definition do_call (fuel : nat) (c : call) (r : rstate) : outcome (answer * rstate) :=
    match c with
    | DError =>                                                          (* 639-641: errors.Join *)
        Done (AErrors (match r_fatal r with Some x => [x] | None => [] end ++ r_denies r), r)
    | DAddError x =>                                                     (* 643-647 *)
        Done (AUnit, match r_fatal r with Some _ => r | None => set_fatal_error x r end)
    | _ =>
        if has_fatal r then Done (zero_answer c, r)
        else obind (run (expecter_of c) fuel TCurrent r) (finish fuel c)
    end.

  (** ** Clients.  A client also asks the collection states it was given; they are numbered in the
      order in which it obtained them. *)
  Inductive request := QCall (c : call) | QSize (h : nat) | QMore (h : nat).
  Inductive reply := PAnswer (a : answer) | PSize (n : nat) | PMore (b : bool).

  Definition colls_of (a : answer) : list coll := match a with AColl c => [c] | _ => [] end.

  (** Size and HasUnprocessedItems of a collection state; on a nil interface they panic *)
  Definition coll_size (c : coll) : outcome nat :=
    match c with CollNil => Panics | CollNoop => Done 0 | CollState n _ => Done n end.
  Definition coll_more (r : rstate) (c : coll) : outcome bool :=
    match c with CollNil => Panics | CollNoop => Done false | CollState _ i => Done (negb (iter_empty i r)) end.

  Definition client := (rstate * list coll)%type.

  Definition do_request (fuel : nat) (q : request) (s : client) : outcome (reply * client) :=
    let (r, hs) := s in
    match q with
    | QCall c => obind (do_call fuel c r) (fun x => Done (PAnswer (fst x), (snd x, hs ++ colls_of (fst x))))
    | QSize h => obind (coll_size (nth h hs CollNil)) (fun n => Done (PSize n, s))
    | QMore h => obind (coll_more r (nth h hs CollNil)) (fun b => Done (PMore b, s))
    end.

  Fixpoint do_requests (fuel : nat) (qs : list request) (s : client) : outcome (list reply * client) :=
    match qs with
    | [] => Done ([], s)
    | q :: qs' =>
        obind (do_request fuel q s) (fun x =>
        obind (do_requests fuel qs' (snd x)) (fun y =>
        Done (fst x :: fst y, snd y)))
    end.
End Reader.
Arguments visit : clear implicits. Arguments engine : clear implicits. Arguments point : clear implicits.
Arguments rstate : clear implicits. Arguments task : clear implicits. Arguments call : clear implicits.
Arguments answer : clear implicits. Arguments request : clear implicits. Arguments reply : clear implicits.
Arguments client : clear implicits.
