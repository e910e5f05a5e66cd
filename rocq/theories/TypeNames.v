(** Model of generator/generator.go: extractTypeName and escapeTag. *)
From Coq Require Import String.
From Verif Require Import Base Generator.
Local Open Scope N_scope.

(** reflect.Type as far as it is looked at: a declared type by its package and its name (no package: a
    predeclared type), pointers and so on without a name, and any other type with its String(). *)
Inductive gotyp :=
| YName (pkg name : text)
| YPtr (t : gotyp) | YSlice (t : gotyp) | YArray (n : nat) (t : gotyp) | YMap (k v : gotyp)
| YStruct (fields : list (text * bool * gotyp * text))   (* name, embedded, type, tag *)
| YOther (s : text).

Section Names.
  (** strconv.Quote, and the path of the package that the code is generated for *)
  Context (quote : text -> text) (own : text).

  (* generator.go 286-292 *)
  Definition escape_tag (tag : text) : text :=
    if existsb (fun c => c =? 96) tag then quote tag else 96 :: tag ++ [96].

  (** strings.Join *)
  Fixpoint join_with (sep : text) (l : list text) : text :=
    match l with [] => [] | [x] => x | x :: l' => x ++ sep ++ join_with sep l' end.

  (* generator.go 197-240; the imports are those of the generator *)
  Fixpoint type_name (t : gotyp) (im : imports) {struct t} : option (text * imports) :=
    let after pre t im := match type_name t im with Some (s, im) => Some (pre ++ s, im) | None => None end in
    match t with
    | YPtr t => after (t' "*") t im
    | YSlice t => after (t' "[]") t im
    | YArray n t => after (t' "[" ++ itoa n ++ t' "]") t im
    | YMap k v =>
        match type_name k im with
        | Some (s, im) => after (t' "map[" ++ s ++ t' "]") v im
        | None => None
        end
    | YStruct fs =>
        let lines := (fix lines (fs : list (text * bool * gotyp * text)) (im : imports) : option (list text * imports) :=
          match fs with
          | [] => Some ([], im)
          | (name, embedded, t, tag) :: fs =>
              match type_name t im with
              | Some (s, im) =>
                  let line := (if embedded : bool then [] else name ++ [32]) ++ s
                              ++ (match tag with [] => [] | _ => 32 :: escape_tag tag end) in
                  match lines fs im with Some (l, im) => Some (line :: l, im) | None => None end
              | None => None
              end
          end) in
        match lines fs im with
        | Some (l, im) => Some (t' "struct { " ++ join_with (t' "; ") l ++ t' " }", im)
        | None => None
        end
    | YOther s => Some (s, im)
    | YName pkg name =>
        match pkg with
        | [] => Some (name, im)
        | _ => if text_eqb pkg own then Some (name, im)
               else match pkg_alias pkg im with
                    | Some (a, im) => Some (a ++ t' "." ++ name, im)
                    | None => None
                    end
        end
    end.

  Fixpoint type_names (l : list gotyp) (im : imports) : option (list text * imports) :=
    match l with
    | [] => Some ([], im)
    | t :: l =>
        match type_name t im with
        | Some (s, im) => match type_names l im with Some (ss, im) => Some (s :: ss, im) | None => None end
        | None => None
        end
    end.
End Names.
