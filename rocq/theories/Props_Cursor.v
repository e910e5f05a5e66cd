(** Property C49, and the positive parts of C24 and C47, for the goyaml engine: its Decoder is a cursor,
    and the loops that use it end. *)
From Coq Require Import String.
From Verif Require Import Base Schema SchemaSpec Values Ast Writer AnyBuilder Builder BuilderSpec GBuilder Reader YReader GReader
  ReadSpec ReaderCases GenCode GenSpec CursorSpec CursorAny CursorProofs CursorRun CursorDecode ClientSpec CursorClient CursorCases.
Local Open Scope nat_scope.

Ltac leaf :=
  match goal with |- unfolds ?g (Some ?i) _ =>
    match eval lazy in (nth_error g i) with Some ?c =>
      exact (un_text g i c eq_refl eq_refl eq_refl) || exact (un_null g i c eq_refl eq_refl eq_refl) end end.
Ltac items := repeat (apply Forall2_cons || apply Forall2_nil).
Ltac tree := repeat first [leaf | eapply un_seq; [reflexivity|reflexivity|items] | eapply un_map; [reflexivity|reflexivity|items]].

(** C49.  In both error modes, a Decoder over a document without aliases answers any sequence of requests
    (calls, and questions to any of the collection states handed out so far) like the cursor of
    CursorSpec.v: also after errors, also when the calls do not fit the document.  Excepted are Raw and Node. *)
Theorem C49_cursor :
  forall o marshal g multi i d qs,
    rooted g i d -> Forall (fun q => usual q = true) qs ->
    exists r, g_reader multi g i = Done r /\
    exists F, forall f, F <= f ->
      replies (do_requests (g_engine marshal o) o f qs (r, [])) = replies (cursor_requests o qs (cursor_start multi d)).
Proof. exact g_cursor. Qed.
Print Assumptions C49_cursor.

(** {a: [1, x], b: ~}; errors are collected.  A key is asked for as an integer, then read; after the list
    is opened and its first element read, x is asked for as an integer and then skipped; the states of
    both collections are asked; b is skipped, the null is read. *)
Definition c49_graph : graph :=
  [mkX KMapping (t' "!!map") [] [] [Some 1; Some 2; Some 5; Some 6] None;
   gscalar (t' "!!str") (t' "a");
   mkX KSequence (t' "!!seq") [] [] [Some 3; Some 4] None; gscalar (t' "!!int") (t' "1"); gscalar (t' "!!str") (t' "x");
   gscalar (t' "!!str") (t' "b"); gscalar (t' "!!null") (t' "~")].
Definition c49_tree : ytree := YMap [YText (t' "a"); YSeq [YText (t' "1"); YText (t' "x")]; YText (t' "b"); YNull (t' "~")].
Definition c49_calls : list request :=
  [QCall DMapping; QMore 0; QCall (DInteger 8); QCall DString; QCall DSequence; QSize 1; QMore 1; QCall (DUnsigned 8);
   QCall (DInteger 8); QMore 1; QCall DSkip; QMore 1; QMore 0; QCall DSkip; QCall DTryNull; QMore 0; QCall DError].
Example C49_example :
  rooted c49_graph 0 c49_tree /\ Forall (fun q => usual q = true) c49_calls
  /\ forall o, replies (cursor_requests (Nd := gref) o c49_calls (cursor_start true c49_tree)) =
     Done [PAnswer (AColl CollNoop); PMore true; PAnswer (AInt 0); PAnswer (AText (t' "a")); PAnswer (AColl CollNoop); PSize 2;
           PMore true; PAnswer (AUint 1); PAnswer (AInt 0); PMore false; PAnswer AUnit; PMore false; PMore true; PAnswer AUnit;
           PAnswer (ABool true); PMore false; PAnswer (AErrors [RDeny EInteger; RDeny EInteger])].
Proof.
  split; [|split].
  - left. unfold c49_tree. tree.
  - repeat constructor.
  - reflexivity.
Qed.

(** C24, positive part.  Full statement: a program that loops while there are unread items and reads in
    each iteration ends.  It is false when errors are collected and for aliases (Props_Reader.v).  In the
    default mode it holds for the documents without aliases, whatever calls the program makes, however
    its loops are nested, and whatever errors occur.  Missing: Raw and Node; the yayamls engine, for
    which it is false. *)
Theorem C24_goyaml_partial :
  forall A o marshal p b g n d,
    ClientSpec.client A (fun _ => False) b p -> unfolds g n d ->
    exists v s F, forall f, F <= f ->
      interp (g_engine marshal o) o f (p f) (r_new g false n, []) = Done (v, s).
Proof. intros A o marshal. exact (g_client_ends o marshal). Qed.
Print Assumptions C24_goyaml_partial.

(** for each element of the list, for each element of the element: add up the integers *)
Definition c24_sum (f : nat) : prog gref Z :=
  Open DSequence (fun h => while f h (fun _ => true) (fun n =>
    Open DSequence (fun h' => while f h' (fun _ => true) (fun n => Call (DInteger 64) (fun a => Ret (n + int a)%Z)) n)) 0%Z).
Example C24_example :
  ClientSpec.client (Nd := gref) Z (fun _ => False) true c24_sum
  /\ (forall o mar, exists s, interp (g_engine mar o) o 30 (c24_sum 30)
        (r_new [mkX KSequence (t' "!!seq") [] [] [Some 1; Some 4] None;
                mkX KSequence (t' "!!seq") [] [] [Some 2; Some 3] None; gscalar (t' "!!int") (t' "1"); gscalar (t' "!!int") (t' "2");
                mkX KSequence (t' "!!seq") [] [] [Some 2] None] false (Some 0), []) = Done (4%Z, s))
  /\ (forall o mar, exists s, interp (g_engine mar o) o 30 (c24_sum 30) (r_new g_bad false (Some 0), []) = Done (0%Z, s)).
Proof.
  split; [|split; intros; eexists; vm_compute; reflexivity].
  unfold c24_sum. apply cl_open with (b := false); [reflexivity|]. intro h.
  apply cl_loop; [right; reflexivity|]. intro n. apply cl_open with (b := false); [reflexivity|]. intro h'.
  apply (cl_loop Z _ h' (fun _ => true) (fun _ n => Call (DInteger 64) (fun a => Ret (n + int a)%Z)) n); [right; reflexivity|].
  intro v. apply (cl_call Z _ false (DInteger 64) (fun _ a => Ret (v + int a)%Z)); [reflexivity|reflexivity|].
  intro a. apply cl_ret.
Qed.

(** C47, positive part.  Full statement: the generated decoder returns on every document.  On goyaml it
    holds in the default mode for every type of a Go program, every document without aliases (fitting or
    not) and every value that the destination holds before. *)
Theorem C47_goyaml_partial :
  forall x tb omitempty strict o marshal t z g n d,
    sensible x tb -> known tb t -> typed tb t z -> unfolds g n d ->
    exists v s F, forall f, F <= f ->
      g_decode x tb omitempty strict o marshal false f t z g n = Done (v, s).
Proof. exact g_decode_ends. Qed.
Print Assumptions C47_goyaml_partial.

(** A recursive type and a document that does not fit: type T struct { Name string; Kids []T; Next *T } *)
Definition c47_x : externs :=
  mkExterns (fun _ => []) (fun _ n => inl [n]) (fun _ s => match s with [n] => Some n | _ => None end) (fun _ => 0%N).
Definition c47_table : structs :=
  [[mkField (t' "name") TyString false false; mkField (t' "kids") (TySlice (TyStruct 0)) false false;
    mkField (t' "next") (TyPtr (TyStruct 0)) false false]].
Definition c47_zero : goval := GoStruct [GoString []; GoNil; GoNil].
Lemma c47_zeroval : zeroval c47_x c47_table (TyStruct 0) c47_zero.
Proof. eapply Z_struct; [reflexivity|]. repeat (apply Forall2_cons || apply Forall2_nil); constructor; reflexivity. Qed.
(** {kids: [{name: a}, 7, {name: b}]} *)
Definition c47_graph : graph :=
  [mkX KMapping (t' "!!map") [] [] [Some 1; Some 2] None; gscalar (t' "!!str") (t' "kids");
   mkX KSequence (t' "!!seq") [] [] [Some 3; Some 6; Some 7] None;
   mkX KMapping (t' "!!map") [] [] [Some 4; Some 5] None; gscalar (t' "!!str") (t' "name"); gscalar (t' "!!str") (t' "a");
   gscalar (t' "!!int") (t' "7");
   mkX KMapping (t' "!!map") [] [] [Some 4; Some 8] None; gscalar (t' "!!str") (t' "b")].
Example C47_example :
  sensible c47_x c47_table /\ known c47_table (TyStruct 0) /\ typed c47_table (TyStruct 0) c47_zero
  /\ (exists d, unfolds c47_graph (Some 0) d)
  /\ forall o mar, exists s, g_decode c47_x c47_table false false o mar false 30 (TyStruct 0) c47_zero c47_graph (Some 0)
     = Done (GoStruct [GoString []; GoSlice [GoStruct [GoString (t' "a"); GoNil; GoNil]; c47_zero]; GoNil], s)
     /\ r_fatal (fst s) = Some (RDeny EMapping).
Proof.
  split; [|split; [|split; [|split]]].
  - intros i fs E. destruct i as [|[|i]]; [|discriminate|discriminate]. injection E as <-. split.
    + eexists. exact c47_zeroval.
    + repeat constructor.
  - cbn. lia.
  - eapply T_struct; [reflexivity|cbn; repeat constructor; cbn; intuition discriminate|].
    repeat (apply Forall2_cons || apply Forall2_nil); constructor; reflexivity.
  - eexists. tree.
  - intros. eexists. split; [vm_compute; reflexivity|reflexivity].
Qed.

(** It is false when errors are collected, *)
Theorem C47_goyaml_denied_refuted :
  exists g d, unfolds g (Some 0) d /\
    forall x tb omitempty strict o marshal fuel,
      g_decode x tb omitempty strict o marshal true fuel (TySlice (TyInt 64)) GoNil g (Some 0) = NoFuel.
Proof.
  exists g_bad, (YSeq [YText (t' "x"); YText (t' "1")]). split; [|intros; apply g_denied_forever].
  tree.
Qed.
Print Assumptions C47_goyaml_denied_refuted.
(** and in both modes for [&a 1, *a, 2]. *)
Theorem C47_goyaml_alias_refuted :
  forall x tb omitempty strict o marshal multi fuel,
    g_decode x tb omitempty strict o marshal multi fuel (TySlice (TyInt 64)) GoNil g_alias (Some 0) = NoFuel.
Proof. exact g_alias_forever. Qed.
Print Assumptions C47_goyaml_alias_refuted.
