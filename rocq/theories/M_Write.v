(** The caller writes into numpy arrays the library handed out, or was handed: psf.PSFi[...] = x, psf.PSFi *= 2,
    out= arguments, zs[:] = ....  The properties of pyotf/otf.py:204-212, 315-318, 429-437, 578-586 return the stored
    arrays themselves, no copies, and nothing in otf.py makes them read-only. *)
From Verif Require Export M_Heap.

Section Write.
Context (E : engine).
(** Assigning the elements of the array behind a reference that a cached property returned (otf.py:204-212, 429-437,
    578-586: [cached_property] stores the array in the __dict__ and returns that same array). *)
Definition write_arr (r : nat) (a : arr E) : HM E unit :=
  fun H => (Ok tt, mkHeap E (hp_obj E H) (hp_rng E H) (replace r a (hp_arr E H))).
End Write.
