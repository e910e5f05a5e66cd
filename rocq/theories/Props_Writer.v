(** Property theorems C20 and C39. *)
From Coq Require Import String.
From Verif Require Import Base Schema Ast Builder GBuilder Writer Encoder WriterSpec WriterProofs.
Local Open Scope nat_scope.

(** C20: after any history of writes, including failed and aborted ones, serializing a tree gives
    what a new writer (with the same anchors keeper) gives. *)
Theorem C20_string_independent_of_history :
  forall K D (kp : option (keeper K)) (dst_write : D -> text -> option N * D) fuel w n,
    some_history kp dst_write w ->
    outcomes_agree (fun x y => fst x = fst y /\ ws_keeper (wr_state (snd x)) = ws_keeper (wr_state (snd y)))
      (w_write_string kp fuel w n)
      (w_write_string kp fuel (new_writer (ws_keeper (wr_state w))) n).
Proof. exact @string_history. Qed.
Print Assumptions C20_string_independent_of_history.

(** Bytes output agrees with string output ... *)
Theorem C20_bytes_agree_with_string :
  forall K D (kp : option (keeper K)) (dst_write : D -> text -> option N * D) fuel w n,
    some_history kp dst_write w ->
    outcomes_agree (fun x y =>
        match fst x, fst y with
        | WOk i, WOk s => slice (snd x) i = s
        | WErr e1, WErr e2 => e1 = e2
        | _, _ => False
        end /\ ws_keeper (wr_state (snd x)) = ws_keeper (wr_state (snd y)))
      (w_write_bytes kp fuel w n) (w_write_string kp fuel w n).
Proof. exact @bytes_agree. Qed.
Print Assumptions C20_bytes_agree_with_string.

(** ... and so does output to a destination: it is given that text at once, or nothing if there is
    an error or no text. *)
Theorem C20_stream_agrees_with_string :
  forall K D (kp : option (keeper K)) (dst_write : D -> text -> option N * D) fuel w n d,
    some_history kp dst_write w ->
    outcomes_agree (fun x y =>
        match fst y with
        | WOk [] => fst x = (WOk d, d)
        | WOk s => fst x = match dst_write d s with
                           | (None, d') => (WOk d', d')
                           | (Some e, d') => (WDst e, d')
                           end
        | WErr es => fst x = (WErr es, d)
        | WDst _ => False
        end /\ ws_keeper (wr_state (snd x)) = ws_keeper (wr_state (snd y)))
      (w_write_to kp dst_write fuel w n d) (w_write_string kp fuel w n).
Proof. exact @to_agree. Qed.
Print Assumptions C20_stream_agrees_with_string.

(** Bytes handed out are not changed by anything done with the writer afterwards. *)
Theorem C20_bytes_not_overwritten :
  forall K D (kp : option (keeper K)) (dst_write : D -> text -> option N * D) fuel w n i w1 w2,
    some_history kp dst_write w ->
    w_write_bytes kp fuel w n = Done (WOk i, w1) -> used_many kp dst_write w1 w2 ->
    slice w2 i = slice w1 i.
Proof. exact @slice_stable. Qed.
Print Assumptions C20_bytes_not_overwritten.

Definition ten : text := [10%N].
Example C20_case :
  let tree := NMapping [NEntry (NText (t' "a") AbsentQuoting) (NSequence [NNull; NAlias (t' "x")]);
                        NEntry (NText (t' "b") SingleQuoting) (NText (t' "l1" ++ ten ++ t' "l2") AbsentQuoting)] in
  match w_write_bytes None 0 (new_writer tt) tree with
  | Done (WOk i, w1) =>
      slice w1 i = t' "a:" ++ ten ++ t' "  - null" ++ ten ++ t' "  - *x" ++ ten
                   ++ t' "'b': |-" ++ ten ++ t' "  l1" ++ ten ++ t' "  l2" ++ ten /\
      match w_write_string None 0 w1 (NSequence [NNull]) with
      | Done (WOk s, w2) => s = t' "- null" ++ ten /\ slice w2 i = slice w1 i
      | _ => False
      end
  | _ => False
  end.
Proof. vm_compute. repeat split. Qed.

(** C39: along every history of requests, each encoding request is answered with the builder's
    error, or with exactly the serialization of the tree built since the previous request, the same
    for the three variants; a destination is not touched if building failed. *)
Theorem C39_yayamls_encoder :
  forall D (dst_write : D -> text -> option N * D) q rs,
    yayamls_run dst_write q rs =
    expected (fun ops => observe (bsteps (new_builder q) ops)) serialized (delivered dst_write) [] rs.
Proof. exact @yayamls_expected. Qed.
Print Assumptions C39_yayamls_encoder.

(** For the goyaml engine yaml.v3's serialization is an arbitrary function. *)
Theorem C39_goyaml_encoder :
  forall (yaml_encode : option gnode -> text + N) D (dst_write : D -> text -> option N * D) q rs,
    goyaml_run yaml_encode dst_write q rs =
    expected (fun ops => g_observe (gsteps (g_new q) ops)) yaml_encode
      (fun t d => match yaml_encode t with inr e => (Some e, d) | inl s => dst_write d s end) [] rs.
Proof. exact @goyaml_expected. Qed.
Print Assumptions C39_goyaml_encoder.

(** In general: any engine whose builder and writer keep their own contracts. *)
Theorem C39_any_engine :
  forall B Op T BE W D Out OutTo (step : B -> Op -> B) (res : B -> option BE * T * B)
         (wstring wbytes : W -> T -> Out * W) (wto : W -> T -> D -> OutTo * D * W)
         build text_of deliver (IB : B -> list Op -> Prop) (IW : W -> Prop),
    lawful step res wstring wbytes wto build text_of deliver IB IW ->
    forall rs e ops, IB (e_builder e) ops -> IW (e_writer e) ->
      enc_run step res wstring wbytes wto e rs = expected build text_of deliver ops rs.
Proof. exact @run_expected. Qed.
Print Assumptions C39_any_engine.

Example C39_case :
  yayamls_run (fun (d : text) s => (None, d ++ s)) false
    [RInsert OStartSeq; RInsert (OScalar (SInt 3)); RInsert OEndSeq; RString;
     RInsert OEndMap; RTo (t' "kept");
     RInsert OStartSeq; RInsert ONull; RInsert OEndSeq; RTo (t' "out:"); RInsert (OScalar (SBool true)); RBytes] =
  [AText (OutText (t' "- 3" ++ ten)); AErrTo EEndMapInvalid (t' "kept");
   ATo ToOk (t' "out:- null" ++ ten); AText (OutText (t' "true"))].
Proof. vm_compute. reflexivity. Qed.
