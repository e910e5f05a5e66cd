(** C67 *)
From Coq Require Import String.
From Verif Require Import Base Generator GeneratorProofs TypeNames TypeNamesSpec TypeNamesProofs.
Local Open Scope N_scope.

(** C67, full statement: the text written for a type is the type in Go's notation under the imports that
    the generator writes, and different types have different texts.  False: a type of the package with the
    name of a predeclared type, and types of the same name in different vendor directories. *)
Theorem C67_shadowed_refuted :
  forall quote, exists own n s im, own <> [] /\ In n predeclared /\
    type_names quote own [YName own n; YName [] n] yayamls_imports = Some ([s; s], im).
Proof.
  intro quote. destruct (shadowed_names quote) as [im E].
  exists (t' "example.com/m"), (t' "string"), (t' "string"), im. split; [discriminate|]. split; [cbn; tauto|exact E].
Qed.
Print Assumptions C67_shadowed_refuted.
Theorem C67_vendored_refuted :
  forall quote, exists own p q n s im, own <> [] /\ p <> [] /\ q <> [] /\ p <> own /\ q <> own /\ p <> q /\
    ~ In n predeclared /\ type_names quote own [YName p n; YName q n] yayamls_imports = Some ([s; s], im).
Proof.
  intro quote. destruct (vendored_names quote) as [im E].
  exists (t' "example.com/m"), (t' "example.com/a/vendor/lib"), (t' "example.com/b/vendor/lib"), (t' "T"), (t' "lib.T"), im.
  repeat (split; [discriminate|]). split; [cbn; intuition discriminate|exact E].
Qed.
Print Assumptions C67_vendored_refuted.

(** C67, proved part: all plain types (TypeNamesSpec.v), in any number and order; the imports of the
    engine stay. *)
Theorem C67_type_names_partial :
  forall quote engine own l, engine = yayamls_imports \/ engine = goyaml_imports -> own <> [] -> Forall (plain own) l ->
  exists names im, type_names quote own l engine = Some (names, im)
    /\ (forall e, In e engine -> In e im)
    /\ Forall2 (notation own im) l names
    /\ forall i j t u a b, nth_error l i = Some t -> nth_error l j = Some u ->
         nth_error names i = Some a -> nth_error names j = Some b -> (a = b <-> t = u).
Proof.
  intros quote engine own l [-> | ->] O P;
    [exact (names_of_types quote own O l _ P yayamls_imports_good yayamls_names)
    |exact (names_of_types quote own O l _ P goyaml_imports_good goyaml_names)].
Qed.
Print Assumptions C67_type_names_partial.

Example C67_case :
  let own := t' "example.com/m" in
  let l := [YMap (YName [] (t' "string")) (YPtr (YName own (t' "T")));
            YArray 12 (YSlice (YName (t' "other.org/decode") (t' "T")));
            YName (t' "x.y/v2.z") (t' "T");
            YStruct [(t' "A", false, YName [] (t' "int"), t' "yaml:a"); (t' "T", true, YPtr (YName own (t' "T")), [])]] in
  Forall (plain own) l /\
  option_map fst (type_names (fun s => s) own l yayamls_imports)
  = Some [t' "map[string]*T"; t' "[12][]decode1.T"; t' "_v2_z.T"; t' "struct { A int `yaml:a`; *T }"].
Proof.
  assert (V : forall p, last_index (t' "/vendor/") p = None -> forall a b, p <> a ++ t' "/vendor/" ++ b)
    by (intros p H; apply last_index_none; [discriminate|exact H]).
  assert (T : plain (t' "example.com/m") (YName (t' "example.com/m") (t' "T"))).
  { apply pl_own; [split; [discriminate|split; [chars|discriminate]]|]. cbn. intuition discriminate. }
  assert (N : name (t' "T")) by (split; [discriminate|split; [chars|discriminate]]).
  cbv zeta. split; [|reflexivity].
  repeat apply Forall_cons; [| | | |constructor].
  - apply pl_map; [apply pl_predeclared; cbn; tauto|]. apply pl_ptr, T.
  - apply pl_array, pl_slice, pl_other; [discriminate|discriminate|chars|apply V; reflexivity|exact N].
  - apply pl_other; [discriminate|discriminate|chars|apply V; reflexivity|exact N].
  - apply pl_struct; repeat apply Forall_cons; try constructor; try exact T; cbn; try tauto; try (intuition discriminate).
    split; [discriminate|split; [chars|discriminate]].
Qed.
