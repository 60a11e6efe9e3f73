(** * What a GeoJSON geometry carries besides its shape, independently of the code *)

From Coq Require Import ZArith Bool String List Permutation.
From Verif Require Import F64 Geo Series RingApi Bytes Geom SpecWkb SpecJson SpecTree.
Import ListNotations.
Local Open Scope Z_scope.

(** A member of an object: its key between the quotes, and its value. *)
Definition pair : Type := list Z * list Z.
Definition pairs (l : list member) : list pair := map (fun m => (fst (fst m), fst (snd m))) l.

(** The members of the object text [x], whose values are nested at most [n] deep. *)
Definition members_of (n : nat) (x : option (list Z)) (L : list pair) : Prop :=
  match x with
  | None => L = []
  | Some x => exists l, object_is n x l /\ L = pairs l
  end.

(** The geometry is a feature: [own] are the members of the feature, [inner] those
    of the geometry in it.  Otherwise [own] are its members. *)
Definition extra_is (n : nat) (feature : bool) (x : option (list Z)) (own inner : list pair) : Prop :=
  if feature then
    (members_of (n - 1) x own /\ inner = []) \/
    (exists k a fx gx r1 r2, x = Some a /\ array_is k a [(fx, r1); (gx, r2)] /\
       members_of (n - 1) (Some fx) own /\ members_of (n - 2) (Some gx) inner)
  else members_of (n - 1) x own /\ inner = [].

Definition key_is (name : list Z) (p : pair) : bool := if list_eq_dec Z.eq_dec (fst p) name then true else false.

(** The keys have names, which are none of [names]; U+10FFFF does not occur. *)
Definition others (names : list (list Z)) (L : list pair) : Prop :=
  Forall (fun p => (exists t, decodes right_pair (fst p) t /\ ~ In t names) /\
                   no_10FFFF (fst p) /\ no_10FFFF (snd p)) L.

(** The members of a feature: no type or geometry; at most one id, a string or
    number; at most one properties, an object with a member; neither key is
    spelt with escapes. *)
Definition feature_ok (n : nat) (L : list pair) : Prop :=
  others [str "type"; str "geometry"] L /\
  (length (filter (key_is (str "id")) L) <= 1)%nat /\
  (length (filter (key_is (str "properties")) L) <= 1)%nat /\
  Forall (fun p =>
    (decodes right_pair (fst p) (str "id") ->
       fst p = str "id" /\ (type_is (snd p) 2 \/ type_is (snd p) 3)) /\
    (decodes right_pair (fst p) (str "properties") ->
       fst p = str "properties" /\ exists m l, l <> [] /\ object_is m (snd p) l)) L.

Inductive kind := Geometry | Feature | Features.
(** [null]: a feature with "properties":null; [unlocated]: with "geometry":null *)
Inductive notes := Notes (k : kind) (null unlocated : bool) (own inner : list pair) (kids : list notes).
Definition kind_of (N : notes) : kind := match N with Notes k _ _ _ _ _ => k end.

(** the member with the coordinates, features or geometries *)
Definition target (g : geom) : list Z :=
  match g with
  | GGMulti MGeoms f _ _ _ => if is_feature_col f then str "features" else str "geometries"
  | _ => str "coordinates"
  end.
Definition xjson_of (g : geom) : option (list Z) :=
  match g with
  | GGPoint _ _ _ _ x | GGLine _ _ _ x | GGPoly _ _ _ x | GGMulti _ _ _ _ x => x
  | _ => None
  end.
(** how deep the text of the geometry is nested: the object, the arrays and the
    numbers; or the object and the array around the children *)
Definition levels (g : geom) : nat :=
  match g with
  | GPoint _ _ | GGPoint _ _ _ _ _ => 3
  | GLine _ _ | GGLine _ _ _ _ | GGMulti MPoints _ _ _ _ => 4
  | GPoly _ _ | GGPoly _ _ _ _ | GGMulti MLines _ _ _ _ => 5
  | GGMulti MPolys _ _ _ _ => 6
  | GGMulti MGeoms _ _ _ _ => 2
  end.

(** [carries n g N]: the geometry carries [N], and its text is nested at most [n]
    deep.  No error anywhere; only collections are feature collections, their
    children are features, and features are no children of other collections; an
    unlocated feature is an empty point. *)
Fixpoint carries (n : nat) (g : geom) (N : notes) {struct g} : Prop :=
  let f := geom_flags g in
  let m := if is_feature f then (n - 1)%nat else n in
  let 'Notes k null un own inner kids := N in
  is_error f = false /\
  k = (if is_feature f then Feature else if is_feature_col f then Features else Geometry) /\
  null = is_feature f && has_null_props f /\ un = is_feature f && is_unlocated f /\
  (un = true -> inner = [] /\ match g with GGPoint f _ _ _ _ => is_empty f = true | _ => False end) /\
  extra_is n (is_feature f) (xjson_of g) own inner /\
  (if is_feature f then
     feature_ok (n - 1) own /\ others [str "type"; target g] inner /\
     (null = true -> filter (key_is (str "properties")) own = [])
   else others [str "type"; target g] own) /\
  (levels g <= m)%nat /\
  match g with
  | GGMulti MGeoms f gs _ _ =>
      (is_feature f = true -> is_feature_col f = false) /\
      (is_empty f = true -> match gs with Some (_ :: _) => False | _ => True end) /\
      match gs with
      | None => kids = []
      | Some l =>
          (fix all (l : list (option geom)) (kids : list notes) : Prop :=
             match l, kids with
             | [], [] => True
             | Some g :: l, N :: kids =>
                 carries (m - 2) g N /\
                 kind_of N = (if is_feature_col f then Feature else Geometry) /\ all l kids
             | _, _ => False
             end) l kids
      end
  | GGMulti _ f gs _ _ =>
      is_feature_col f = false /\ kids = [] /\
      (is_empty f = true -> match gs with Some (_ :: _) => False | _ => True end)
  | _ => is_feature_col f = false /\ kids = []
  end.

(** ** What becomes of shape and notes in GeoJSON *)

(** the id of a feature comes first *)
Definition id_first (L : list pair) : list pair :=
  filter (key_is (str "id")) L ++ filter (fun p => negb (key_is (str "id") p)) L.
Fixpoint rewritten (N : notes) : notes :=
  let 'Notes k null un own inner kids := N in
  Notes k null un (match k with Feature => id_first own | _ => own end) inner (map rewritten kids).

(** three coordinates are always x, y and z; empty points, lines and polygons have
    no Z and M, other empty ones both *)
Definition gj_dim (d : dim) : dim := Dim (dz d || dm d) (dz d && dm d).
Definition gj_dims {A : Type} (none : dim) (d : dim) (l : list A) : dim :=
  match l with [] => none | _ => gj_dim d end.
Fixpoint gj_back (s : shape) : shape :=
  match s with
  | ShPoint d p => ShPoint (gj_dims xy d p) p
  | ShLine d ps => ShLine (gj_dims xy d ps) ps
  | ShPoly d rs => ShPoly (gj_dims xy d rs) rs
  | ShPoints d ps => ShPoints (gj_dims (Dim true true) d ps) ps
  | ShLines d ls => ShLines (gj_dims (Dim true true) d ls) ls
  | ShPolys d ps => ShPolys (gj_dims (Dim true true) d ps) ps
  | ShGeoms gs => ShGeoms (map gj_back gs)
  end.

(** The shapes that GeoJSON can spell: positions of the right size, lines of two
    or more, rings that are closed. *)
Fixpoint gj_fits (s : shape) : Prop :=
  match s with
  | ShPoint d p => p = [] \/ posn_ok d p
  | ShLine d ps => ps = [] \/ line_ok d ps
  | ShPoly d rs => Forall (ring_ok d) rs
  | ShPoints d ps => Forall (posn_ok d) ps
  | ShLines d ls => Forall (line_ok d) ls
  | ShPolys d ps => Forall (fun rs => rs <> [] /\ Forall (ring_ok d) rs) ps
  | ShGeoms gs =>
      (fix all (l : list shape) : Prop :=
         match l with [] => True | s :: rest => gj_fits s /\ all rest end) gs
  end.

(** a number as it is printed: one that is not normal becomes 0 *)
Definition flushed (x : f64) : f64 := if f_isnormal x then x else 0.

(** The same members, those of a feature in any order. *)
Inductive same_notes : notes -> notes -> Prop :=
  | same_any k null un own own' inner kids kids' :
      Permutation own own' -> (k <> Feature -> own = own') -> Forall2 same_notes kids kids' ->
      same_notes (Notes k null un own inner kids) (Notes k null un own' inner kids').

(** Nothing is lost: no M without Z; empty points, lines and polygons without Z and
    M; other empty ones with both. *)
Definition exact_dim {A : Type} (none : dim) (d : dim) (l : list A) : Prop :=
  match l with [] => d = none | _ => dm d = true -> dz d = true end.
Fixpoint gj_exact (s : shape) : Prop :=
  match s with
  | ShPoint d p => exact_dim xy d p
  | ShLine d ps => exact_dim xy d ps
  | ShPoly d rs => exact_dim xy d rs
  | ShPoints d ps => exact_dim (Dim true true) d ps
  | ShLines d ls => exact_dim (Dim true true) d ls
  | ShPolys d ps => exact_dim (Dim true true) d ps
  | ShGeoms gs =>
      (fix all (l : list shape) : Prop :=
         match l with [] => True | s :: rest => gj_exact s /\ all rest end) gs
  end.
