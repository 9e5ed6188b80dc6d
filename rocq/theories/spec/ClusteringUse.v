(** What a Clustering object shows to its user, and the ways to use one. *)
From Verif.model Require Import Base Wire SchemaCode Schema SchemaClustering.
From Verif.spec Require Import WireSpec ClusteringMessageSpec.
Local Open Scope Z_scope.

(** Through has_pitman_yor, pitman_yor, has_low_entropy, low_entropy, unknown_fields. *)
Definition shows (o : clustering_object) : clustering :=
  Clustering (if cl_has_py o then Some (cl_pitman_yor o) else None)
             (if cl_has_le o then Some (cl_low_entropy o) else None) (cl_unknown o).

(** Every object that can be made: new; a sub-message set to anything through mutable_x(); one of the fields
    cleared or released; all cleared; read from bytes; merged into; copied into. *)
Inductive in_use (d : nat) : clustering_object -> Prop :=
| use_new : in_use d cl_ctor
| use_set_py o m : in_use d o -> message_of d pitman_yor_schema m -> in_use d (cl_set_py (cl_mutable_py o) m)
| use_set_le o m : in_use d o -> message_of d low_entropy_schema m -> in_use d (cl_set_le (cl_mutable_le o) m)
| use_clear_py o : in_use d o -> in_use d (cl_clear_py o)
| use_clear_le o : in_use d o -> in_use d (cl_clear_le o)
| use_release_py o : in_use d o -> in_use d (cl_release_py o)
| use_release_le o : in_use d o -> in_use d (cl_release_le o)
| use_clear o : in_use d o -> in_use d (cl_clear o)
| use_parse room o l o' : in_use d o -> Forall (fun x => 0 <= x < 256) l ->
    cl_parse_partial room (S d) o l = Ok (Some o') -> in_use d o'
| use_merge x o o' : in_use d x -> in_use d o -> cl_merge_from x o = Ok o' -> in_use d o'
| use_copy x o o' : in_use d x -> in_use d o -> cl_copy_from x o = Ok o' -> in_use d o'.
