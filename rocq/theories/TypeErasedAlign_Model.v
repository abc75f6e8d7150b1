(** Where TypeErased puts objects in memory: the alignment that TypeErased_Model leaves
    out. *)
From Verif Require Import Base TypeErased_Spec.

(** What is known about the storage: alignof(std::max_align_t) (type-erasure.hpp:229) and
    the alignment of what allocator_type::allocate(n) returns for std::byte
    (type-erasure.hpp:222, 338, 394, 564). [std_allocator]: __STDCPP_DEFAULT_NEW_ALIGNMENT__,
    16 on x86-64; std::pmr::polymorphic_allocator<std::byte> asks its resource for
    alignof(std::byte) = 1. *)
Record guarantees := Guar { g_buffer : nat; g_heap : nat }.
(** std::allocator<std::byte> (type-erasure.hpp:222). *)
Definition std_allocator : guarantees := Guar 16 16.
(** std::pmr::polymorphic_allocator<std::byte> (type-erasure.hpp:222). *)
Definition pmr_allocator : guarantees := Guar 16 1.

(** Addresses of places in a run: small buffers are declared alignas(std::max_align_t)
    (type-erasure.hpp:229), blocks come from the allocator as they come (564). *)
Definition places (g : guarantees) (address : loc -> nat) : Prop :=
  (forall i, Nat.divide (g_buffer g) (address (LSmall i))) /\
  (forall b, Nat.divide (g_heap g) (address (LHeap b))).
