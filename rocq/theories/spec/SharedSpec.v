(** Histories of a Dirichlet-process shared, said on the plain list of the values it counts.
    No reference to the model of the code. *)
From Coq Require Import List ZArith Reals.
From Verif.spec Require Import GroupSpec.
Import ListNotations.

(** add_value(v) during which the sampler answers u (if asked), remove_value(v). *)
Inductive dop := DAdd (v : Z) (u : R) | DRem (v : Z).

(** [dhistory l ops l' n]: ops lead from the values l to l' and n of them add a value that is not
    present.  Values are not the reserved id 2^32 - 1, samples lie in ]0, 1], only present values
    are removed, there are never more than 2^31 - 1 values. *)
Inductive dhistory : list Z -> list dop -> list Z -> nat -> Prop :=
| dh_nil l : dhistory l [] l 0
| dh_old l v u ops l' n : In v l -> v <> 4294967295%Z -> (0 < u <= 1)%R -> short (v :: l) ->
    dhistory (v :: l) ops l' n -> dhistory l (DAdd v u :: ops) l' n
| dh_new l v u ops l' n : ~ In v l -> v <> 4294967295%Z -> (0 < u <= 1)%R -> short (v :: l) ->
    dhistory (v :: l) ops l' n -> dhistory l (DAdd v u :: ops) l' (S n)
| dh_rem l1 v l2 ops l' n : v <> 4294967295%Z -> dhistory (l1 ++ l2) ops l' n -> dhistory (l1 ++ v :: l2) (DRem v :: ops) l' n.

(** The values stored in a message: [counts_i] copies of [values_i]. *)
Fixpoint msg_values (values counts : list Z) : list Z :=
  match values, counts with
  | v :: vs, c :: cs => repeat v (Z.to_nat c) ++ msg_values vs cs
  | _, _ => []
  end.
(** A message holding the values [l]: parallel lists of distinct ids (not the reserved one),
    positive weights and positive counts. *)
Record good_message (values : list Z) (betas : list R) (counts : list Z) (l : list Z) : Prop := {
  wf_betas : length betas = length values;
  wf_counts : length counts = length values;
  wf_nodup : NoDup values;
  wf_other : ~ In 4294967295%Z values;
  wf_pos : Forall (fun b => (0 < b)%R) betas;
  wf_cpos : Forall (fun c => (1 <= c)%Z) counts;
  wf_data : l = msg_values values counts;
  wf_short : short l }.
