(** Model of align/schema/visitor.py: [Visitor] and [Transformer] with visitor methods for the
    leaves ([visit_str], [visit_int], [visit_NoneType]) and the cache of [generic_visit].

    Objects live in a heap and are named by their position, which stands for [id].  An object is
    only added, as python keeps all objects of a tree alive while the tree is visited.
    Simplified: a [bool] is an integer; the keys of a mapping are strings; [iter_fields] yields all fields;
    nodes of other types (floats, tuples, ..) are [VBad].  The recursion has a fuel, as a tree
    with a cycle makes python exceed its recursion limit. *)
From Coq Require Import String.
From Verif Require Import Base.Prelude.

Inductive leaf := LStr (s : string) | LInt (z : Z) | LNone.
Inductive val := VRef (id : nat) | VLeaf (l : leaf) | VBad.

(** types.py: a [BaseModel] with its fields; a sequence, either [types.List] ([typed]) or a plain
    list; a mapping, [types.Dict] or a plain dict. *)
Inductive obj :=
| OModel (cls : string) (fields : list (string * val))
| OSeq (typed : bool) (items : list val)
| OMap (typed : bool) (items : list (string * val)).
Definition kids (o : obj) : list val :=
  match o with OModel _ fs => map snd fs | OSeq _ vs => vs | OMap _ kvs => map snd kvs end.
(** visitor.py:102, 135: the types whose results are cached. *)
Definition cacheable (o : obj) : bool :=
  match o with OModel _ _ => true | OSeq t _ => t | OMap t _ => t end.

(** visitor.py:74-75 [self.cache]; the newest entry first, none is overwritten. *)
Record state (R : Type) := St { hp : list obj; cache : list (nat * R) }.
Arguments St {R}. Arguments hp {R}. Arguments cache {R}.
Fixpoint cached {R} (id : nat) (c : list (nat * R)) : option R :=
  match c with [] => None | (k, v) :: c' => if (id =? k)%nat then Some v else cached id c' end.

(** A comprehension: the state goes from one call to the next, an exception ends it. *)
Fixpoint each {A B S} (f : S -> A -> option (B * S)) (st : S) (l : list A) : option (list B * S) :=
  match l with
  | [] => Some ([], st)
  | a :: l' => match f st a with
               | Some (b, st1) => match each f st1 l' with Some (bs, st2) => Some (b :: bs, st2) | None => None end
               | None => None
               end
  end.

Definition alloc {R} (st : state R) (o : obj) : val * state R := (VRef (length (hp st)), St (hp st ++ [o]) (cache st)).

(** * Transformer *)
Section Transformer.
(** The method for leaves; [None] if it returns the node itself. *)
Variable f : leaf -> option leaf.

Definition is_ref (id : nat) (v : val) : bool := match v with VRef j => (id =? j)%nat | _ => false end.

(** What pydantic makes of the value of a field of a new model (types.py:60-66,
    copy_on_model_validation = 'none'): models, [types.List] and [types.Dict] are taken as they
    are; a plain list or dict becomes a new object of the annotated type, here the type of the
    old value.  Simplified: only the outermost list or dict is converted; values always have the annotated types. *)
Definition typed_of (h : list obj) (v : val) : bool :=
  match v with
  | VRef i => match nth_error h i with Some (OSeq t _) | Some (OMap t _) => t | _ => false end
  | _ => false
  end.
Definition coerce (st : state val) (ov : val * val) : option (val * state val) :=
  let '(old, new) := ov in
  Some match new with
       | VRef j => match nth_error (hp st) j with
                   | Some (OSeq false vs) => alloc st (OSeq (typed_of (hp st) old) vs)
                   | Some (OMap false kvs) => alloc st (OMap (typed_of (hp st) old) kvs)
                   | _ => (new, st)
                   end
       | _ => (new, st)
       end.

(** visitor.py:140, 143, 146: the new node. *)
Definition rebuild (st : state val) (o : obj) (new : list val) : option (val * state val) :=
  match o with
  | OModel cls fs =>
      match each coerce st (combine (map snd fs) new) with
      | Some (vs, st') => Some (alloc st' (OModel cls (combine (map fst fs) vs)))
      | None => None
      end
  | OSeq _ _ => Some (alloc st (OSeq false new))
  | OMap _ kvs => Some (alloc st (OMap false (combine (map fst kvs) new)))
  end.

(** visitor.py:135-151 [Transformer.generic_visit] with the decorator of lines 30-42, and 77-82 [visit].  The
    flag of the result is whether the result [is] the node. *)
Fixpoint transform (n : nat) (st : state val) (v : val) : option ((val * bool) * state val) :=
  match v with
  | VBad => None
  | VLeaf l => Some (match f l with None => (v, true) | Some l' => (VLeaf l', false) end, st)
  | VRef id =>
      match n, nth_error (hp st) id with
      | S n', Some o =>
          match (if cacheable o then cached id (cache st) else None) with
          | Some v' => Some ((v', is_ref id v'), st)
          | None =>
              match each (transform n') st (kids o) with
              | None => None
              | Some (rs, st1) =>
                  match (if forallb snd rs then Some (v, st1) else rebuild st1 o (map fst rs)) with
                  | None => None
                  | Some (v', st2) => Some ((v', is_ref id v'), if cacheable o then St (hp st2) ((id, v') :: cache st2) else st2)
                  end
              end
          end
      | _, _ => None
      end
  end.
End Transformer.

(** * Visitor *)
Section Visitor.
Context {R : Type}.
(** The method for leaves; [None] is python's None, as for leaves without a method. *)
Variable g : leaf -> option R.
Inductive result := RLeaf (r : option R) | RList (rs : list R).

(** visitor.py:92-100 [flatten]. *)
Definition flatten (l : list result) : list R :=
  flat_map (fun x => match x with RLeaf None => [] | RLeaf (Some r) => [r] | RList rs => rs end) l.

(** visitor.py:102-115 [Visitor.generic_visit]. *)
Fixpoint visit (n : nat) (st : state result) (v : val) : option (result * state result) :=
  match v with
  | VBad => None
  | VLeaf l => Some (RLeaf (g l), st)
  | VRef id =>
      match n, nth_error (hp st) id with
      | S n', Some o =>
          match (if cacheable o then cached id (cache st) else None) with
          | Some r => Some (r, st)
          | None =>
              match each (visit n') st (kids o) with
              | None => None
              | Some (rs, st1) =>
                  let r := RList (flatten rs) in
                  Some (r, if cacheable o then St (hp st1) ((id, r) :: cache st1) else st1)
              end
          end
      | _, _ => None
      end
  end.
End Visitor.
Arguments result : clear implicits.
