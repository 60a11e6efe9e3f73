(** * Hex text, GeoBIN and geometry objects, independently of the code *)

From Coq Require Import ZArith Bool List.
From Verif Require Import F64 Geo Series RingApi Bytes Geom SpecWkb SpecJson.
Import ListNotations.
Local Open Scope Z_scope.

(** ** Hex text *)

(** [hex_digit c v]: the character [c] is the hex digit of value [v], in either
    case. *)
Definition hex_digit (c v : Z) : Prop :=
  0 <= v < 16 /\
  (v < 10 /\ c = 48 + v \/ 10 <= v /\ (c = 65 + (v - 10) \/ c = 97 + (v - 10))).

(** [hex_text bs t]: the text [t] spells the bytes [bs], high digit first. *)
Fixpoint hex_text (bs t : list Z) : Prop :=
  match bs, t with
  | [], [] => True
  | b :: bs, h :: l :: t =>
      (exists vh vl, hex_digit h vh /\ hex_digit l vl /\ b = 16 * vh + vl) /\ hex_text bs t
  | _, _ => False
  end.

(** ** The contract of a text writer: the length of the text is returned whatever
    the size of the buffer, and as much of it as fits is stored with a terminating
    zero. *)
Definition written_text (f : list Z -> option (nat * list Z)) (full : list Z) : Prop :=
  forall dst, f dst = Some (length full, text_into full dst).

(** ** Geometry objects: a geometry or a feature, with extra JSON, or a collection
    of features *)

Inductive obj :=
  | OGeom (feature : bool) (xj : option (list Z)) (s : shape)
  | OFeats (xj : option (list Z)) (fs : list obj).

(** the extra JSON of a geometry value *)
Definition xjson_of (g : geom) : option (list Z) :=
  match g with
  | GPoint _ _ | GLine _ _ | GPoly _ _ => None
  | GGPoint _ _ _ _ x | GGLine _ _ _ x | GGPoly _ _ _ x | GGMulti _ _ _ _ x => x
  end.
Definition xj_none (g : geom) : bool :=
  match xjson_of g with None => true | Some _ => false end.

(** neither a feature nor a collection of features, and without extra JSON,
    children included *)
Fixpoint bare (g : geom) : bool :=
  negb (is_feature (geom_flags g)) && negb (is_feature_col (geom_flags g)) && xj_none g &&
  match g with
  | GGMulti _ _ (Some l) _ _ =>
      forallb (fun o => match o with Some c => bare c | None => false end) l
  | _ => true
  end.
Definition bare_children (g : geom) : bool :=
  match g with
  | GGMulti _ _ (Some l) _ _ =>
      forallb (fun o => match o with Some c => bare c | None => false end) l
  | _ => true
  end.

(** The object that a geometry value stands for; nothing for an error, for a value
    without a shape, and for a geometry that has a feature or extra JSON among its
    parts without being a collection of features. *)
Fixpoint object_of (g : geom) : option obj :=
  let f := geom_flags g in
  if is_error f then None
  else if is_feature_col f then
    match g with
    | GGMulti MGeoms _ (Some l) _ x =>
        if is_feature f || is_empty f || negb (is_xy f) then None
        else option_map (OFeats x)
               (all_some (map (fun o => match o with Some c => object_of c | None => None end) l))
    | _ => None
    end
  else if bare_children g then option_map (OGeom (is_feature f) (xjson_of g)) (shape_of g)
  else None.

(** the geometry of an object *)
Fixpoint obj_shape (o : obj) : shape :=
  match o with
  | OGeom _ _ s => s
  | OFeats _ fs => ShGeoms (map obj_shape fs)
  end.

(** ** The GeoBIN encoding (docs/GEOBIN.md) *)

Definition xj_text (x : option (list Z)) : list Z := match x with Some t => t | None => [] end.

(** the number of dimensions and two numbers for each, or just a zero *)
Definition mbr_enc (m : list Z) : Prop :=
  m = [0] \/ exists dims r, m = dims :: r /\ 2 <= dims <= 4 /\ length r = Z.to_nat (16 * dims).

(** [geobin_enc o bs]: the bytes [bs] are a GeoBIN encoding of [o]. *)
Fixpoint geobin_enc (o : obj) (bs : list Z) {struct o} : Prop :=
  match o with
  | OGeom f x s =>
      (f = false /\ x = None /\ hd 0 bs = 1 /\ wkb_enc s bs) \/
      exists m w, bs = (if f then 3 else 2) :: m ++ xj_text x ++ 0 :: w /\ mbr_enc m /\ wkb_enc s w
  | OFeats x fs =>
      exists m cs, bs = 4 :: m ++ xj_text x ++ 0 :: le_bytes 4 (Z.of_nat (length fs)) ++ cs /\
        mbr_enc m /\ e_seq geobin_enc fs cs
  end.

(** Extra JSON is a JSON text (in the grammar that tg checks) and not empty. *)
Definition xj_ok (x : option (list Z)) : Prop :=
  match x with
  | None => True
  | Some t => t <> [] /\ Forall (fun b => 0 < b < 256) t /\ lax_json 1024 t
  end.

(** [obj_fits depth o]: the object can be encoded at nesting level [depth];
    [obj_reads]: an encoding is read without an error. *)
Fixpoint obj_fits (depth : nat) (o : obj) : Prop :=
  match o with
  | OGeom _ x s => xj_ok x /\ fits depth s
  | OFeats x fs =>
      xj_ok x /\ (depth <= 1024)%nat /\ Z.of_nat (length fs) < 2 ^ 31 /\
      (fix all (l : list obj) : Prop :=
         match l with [] => True | o :: rest => obj_fits (S depth) o /\ all rest end) fs
  end.
Fixpoint obj_reads (depth : nat) (o : obj) : Prop :=
  match o with
  | OGeom _ x s => xj_ok x /\ reads depth s
  | OFeats x fs =>
      xj_ok x /\ (depth <= 1024)%nat /\ Z.of_nat (length fs) < 2 ^ 31 /\
      (fix all (l : list obj) : Prop :=
         match l with [] => True | o :: rest => obj_reads (S depth) o /\ all rest end) fs
  end.

(** no error among the parts, except for the features of feature collections *)
Fixpoint feats_clean (g : geom) : Prop :=
  is_error (geom_flags g) = false /\
  match g with
  | GGMulti _ f (Some l) _ _ =>
      (fix all (l : list (option geom)) : Prop :=
         match l with
         | [] => True
         | Some c :: rest =>
             (if is_feature_col f then error_geom c \/ feats_clean c else no_error c) /\ all rest
         | None :: rest => all rest
         end) l
  | _ => True
  end.
