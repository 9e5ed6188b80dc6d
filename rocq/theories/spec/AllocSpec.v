(** What the C library promises about posix_memalign and free, what it requires, and what a
    user expects of an allocator. *)
From Coq Require Import List ZArith.
From Verif.model Require Import Alloc.
Import ListNotations.
Local Open Scope Z_scope.

(** The half-open spans [p, p + m) and [q, q + n) have no byte in common. *)
Definition apart (p m q n : Z) : Prop := p + m <= q \/ q + n <= p.

(** POSIX: the block that posix_memalign answers starts at a multiple of the alignment, lies
    within the address space and apart from every live block.  For no bytes it may be null,
    and otherwise is still an address of its own. *)
Definition memalign_ok (alignment : Z) (live : list (Z * Z)) (a bytes : Z) : Prop :=
  a mod alignment = 0 /\ a + bytes <= 2 ^ 64 /\
  ((a = 0 /\ bytes = 0) \/
   (0 < a /\ forall b, In b live -> apart a (Z.max 1 bytes) (fst b) (Z.max 1 (snd b)))).

(** Removing the first block at an address. *)
Fixpoint drop (p : Z) (live : list (Z * Z)) : option (list (Z * Z)) :=
  match live with
  | [] => None
  | b :: t => if fst b =? p then Some t
              else match drop p t with Some t => Some (b :: t) | None => None end
  end.

(** The library keeps its promise throughout: [live] are the blocks allocated and not freed. *)
Fixpoint library_ok (live : list (Z * Z)) (calls : list lib_call) : Prop :=
  match calls with
  | [] => True
  | Memalign alignment bytes (Some a) :: t =>
      memalign_ok alignment live a bytes /\ library_ok ((a, bytes) :: live) t
  | Memalign _ _ None :: t => library_ok live t
  | Free p :: t => match drop p live with Some live => library_ok live t | None => library_ok live t end
  end.

(** Every free is of a live block or of null: otherwise the program is undefined. *)
Fixpoint frees_ok (live : list (Z * Z)) (calls : list lib_call) : Prop :=
  match calls with
  | [] => True
  | Memalign _ bytes (Some a) :: t => frees_ok ((a, bytes) :: live) t
  | Memalign _ _ None :: t => frees_ok live t
  | Free p :: t => match drop p live with Some live => frees_ok live t | None => p = 0 /\ frees_ok live t end
  end.

(** What the user owns: pointers obtained and not yet given back, with the number of elements
    asked for. *)
Fixpoint give_back (p n : Z) (owned : list (Z * Z)) : option (list (Z * Z)) :=
  match owned with
  | [] => None
  | (q, m) :: t =>
      if ((q =? p) && (m =? n))%bool then Some t
      else match give_back p n t with Some t => Some ((q, m) :: t) | None => None end
  end.

(** The user asks for counts that exist and gives back only what is owned: [owned] before,
    [last] after the calls, whose results are [rs]. *)
Fixpoint user_ok (sz : Z) (owned : list (Z * Z)) (cs : list heap_call) (rs : list got) (last : list (Z * Z)) : Prop :=
  match cs, rs with
  | [], [] => last = owned
  | Allocate n _ :: cs, r :: rs =>
      0 <= n /\ n * sz < 2 ^ 64 /\
      user_ok sz (match r with Got a => (a, n) :: owned | Bad_alloc => owned end) cs rs last
  | Deallocate p n :: cs, rs =>
      match give_back p n owned with Some owned => user_ok sz owned cs rs last | None => False end
  | _, _ => False
  end.

(** Everything owned is aligned, holds n elements within the address space and overlaps
    nothing else that is owned. *)
Definition all_usable (sz alignment : Z) (owned : list (Z * Z)) : Prop :=
  (forall p n, In (p, n) owned -> p mod alignment = 0 /\ 0 <= p /\ p + n * sz <= 2 ^ 64) /\
  (forall i j p m q n, i <> j -> nth_error owned i = Some (p, m) -> nth_error owned j = Some (q, n) ->
     apart p (m * sz) q (n * sz)).
