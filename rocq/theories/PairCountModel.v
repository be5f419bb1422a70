(** Model of the sequential pair count of the BPE trainer, /repo/model/bpe/trainer.go:510-565. *)
From Verif Require Import Base BpeModel TrainerModel.
Open Scope Z_scope.

(** trainer.go:517-557: the windows of one word; the count of the word is read at every window. *)
Fixpoint count_word_m (counts : list Z) (k : nat) (w : list Z) (s : pair_counts * pair_words) : res (pair_counts * pair_words) :=
  match w with
  | a :: ((b :: _) as w') =>
      do c <- zindex counts (Z.of_nat k);
      count_word_m counts k w' (pc_add (a, b) c (fst s), pw_add (a, b) k (snd s))
  | _ => Ok s
  end.
(** trainer.go:515-558. *)
Fixpoint count_words_m (counts : list Z) (k : nat) (words : list (list Z)) (s : pair_counts * pair_words) : res (pair_counts * pair_words) :=
  match words with
  | [] => Ok s
  | w :: words' => do s' <- count_word_m counts k w s; count_words_m counts (S k) words' s'
  end.
(** trainer.go:510-565; the progress argument is not read. *)
Definition count_pairs_m (words : list (list Z)) (counts : list Z) : res (pair_counts * pair_words) := count_words_m counts 0 words ([], []).
