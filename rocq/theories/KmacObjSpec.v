(** What a keyed hash object is, without looking at how it is built: it remembers the bytes written
    since it was made or last reset, and nothing else. *)
From Verif Require Import Bytes KmacObj.

(** Answers of an object whose hash function is [f], whose size and block size are [n] and [b], and
    which has been given [m] so far. *)
Fixpoint answers (f : bytes -> bytes) (n b : nat) (m : bytes) (os : list hash_op) : list hash_ans :=
  match os with
  | [] => []
  | HWrite p :: os => AWritten (length p) :: answers f n b (m ++ p) os
  | HSum out :: os => ASum (out ++ f m) :: answers f n b m os
  | HReset :: os => ADone :: answers f n b [] os
  | HSize :: os => ANum n :: answers f n b m os
  | HBlockSize :: os => ANum b :: answers f n b m os
  end.
