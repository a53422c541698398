(** C47: comment blocks of program text. *)
From Coq Require Import ZArith List Bool Lia Sorted.
From Verif Require Import Base StrModel StrSpec StrProofs CommentModel CommentSpec CommentProofs.
Import ListNotations.
Local Open Scope nat_scope.

(** Lines are determined by the text, so "the lines" below means something. *)
Theorem C47_lines : forall text, exists lines, has_lines text lines /\ forall ls, has_lines text ls -> ls = lines.
Proof.
  intros text. destruct (lines_of_spec text) as (ls & _ & H). exists ls. split; [exact H|]. intros x X. now apply (has_lines_fun text).
Qed.
Print Assumptions C47_lines.

(** One fragment for every maximal run of comment lines, in order, with the
    line and column of its first comment; for [fragment_of] see the
    specification. *)
Theorem C47_extract : forall text prefixes lines, has_lines text lines -> exists rs fs,
  extract text prefixes = Ok fs /\ runs prefixes 0 lines rs /\ Forall2 (fragment_of prefixes) rs fs.
Proof.
  intros text prefixes lines H. destruct (extract_spec text prefixes) as (ls & rs & fs & A & B & C & D).
  rewrite (has_lines_fun _ _ _ H A). eauto.
Qed.
Print Assumptions C47_extract.

(** Runs are apart by at least a line; a line holds a prefix iff it is in one
    of them. *)
Theorem C47_runs : forall prefixes lines rs, runs prefixes 0 lines rs ->
  StronglySorted (fun a b => fst a + length (snd a) < fst b) rs /\
  forall k line, nth_error lines k = Some line ->
    (~ plain prefixes line <-> exists r, In r rs /\ fst r <= k < fst r + length (snd r)) /\
    (forall r j, In r rs -> k = fst r + j -> j < length (snd r) ->
       exists c b, nth_error (snd r) j = Some (c, b) /\ comment prefixes line c b).
Proof.
  intros prefixes lines rs R. split; [now apply (runs_apart _ _ _ _ R)|]. intros k line H. exact (runs_cover _ _ _ _ R k line H).
Qed.
Print Assumptions C47_runs.

(** As the caller sees it: fragments in line order and apart, each at a line
    with a prefix, at the column of the leftmost one. *)
Theorem C47_fragments : forall text prefixes lines fs, has_lines text lines -> extract text prefixes = Ok fs ->
  StronglySorted (fun a b => base_line a + 1 < base_line b) fs /\
  Forall (fun f => exists line body, nth_error lines (base_line f) = Some line /\
                   comment prefixes line (base_col f) body) fs.
Proof.
  intros text prefixes lines fs H E. destruct (C47_extract text prefixes lines H) as (rs & fs' & A & B & C).
  rewrite E in A. injection A as <-. destruct (C47_runs _ _ _ B) as [S Cov]. split.
  - clear - C S. induction C as [|r f rs fs F C IH]; constructor; inversion S as [|? ? S1 S2]; subst; [auto|].
    destruct F as (F1 & (c & b & bs & F2 & _) & _). rewrite F2 in S2. cbn [length] in S2. rewrite F1. clear - C S2.
    induction C as [|r' f' rs fs F C IH]; constructor; inversion S2 as [|? ? X Y]; subst; [|auto].
    destruct F as (F1 & _). lia.
  - apply Forall_forall. intros f Hf.
    assert (R : exists r, In r rs /\ fragment_of prefixes r f).
    { clear - C Hf. induction C as [|r f' rs fs F C IH]; [destruct Hf|]. destruct Hf as [<-|Hf]; [exists r; split; [now left|exact F]|].
      destruct (IH Hf) as (r' & X & Y). exists r'. split; [now right|exact Y]. }
    destruct R as (r & Hr & F1 & (c & b & bs & F2 & F3) & _).
    pose proof (runs_upper _ _ _ _ B r Hr) as U. rewrite F2 in U. cbn in U.
    destruct (nth_error lines (base_line f)) as [line|] eqn:N; [|apply nth_error_None in N; lia].
    destruct (proj2 (Cov _ _ N) r 0 Hr) as (c' & b' & X & Y); [lia|rewrite F2; cbn; lia|].
    rewrite F2 in X. cbn in X. injection X as <- <-. exists line, b. split; [reflexivity|]. now rewrite F3.
Qed.
Print Assumptions C47_fragments.

(** "x", "y // a", "// b", "z", "//c" with the prefixes "//" and "#". *)
Definition slashes : list Z := [47; 47]%Z.
Definition hash : list Z := [35]%Z.
Definition ex_text : list Z := ([120; 10] ++ [121; 32; 47; 47; 32; 97; 10] ++ [47; 47; 32; 98; 10] ++ [122; 10] ++ [47; 47; 99])%Z.
Example C47_demo : extract ex_text [slashes; hash] = Ok [mkFrag 1 2 [97; 10; 98]%Z; mkFrag 4 0 [99]%Z].
Proof. reflexivity. Qed.

(** Findings.  A second marker is kept on the first line of a block and removed
    on the others ("## a", "## b" becomes "# a", "b")... *)
Theorem C47_repeated_prefix_refuted :
  extract ([35; 35; 32; 97; 10] ++ [35; 35; 32; 98])%Z [hash] = Ok [mkFrag 0 0 [35; 32; 97; 10; 98]%Z].
Proof. reflexivity. Qed.
Print Assumptions C47_repeated_prefix_refuted.
(** ... an empty last comment line is lost although an empty inner one is
    kept... *)
Theorem C47_last_empty_refuted :
  extract ([35; 97; 10] ++ [35; 10] ++ [35])%Z [hash] = Ok [mkFrag 0 0 [97; 10]%Z] /\
  extract ([35; 97; 10] ++ [35; 10] ++ [35; 98])%Z [hash] = Ok [mkFrag 0 0 [97; 10; 10; 98]%Z].
Proof. split; reflexivity. Qed.
Print Assumptions C47_last_empty_refuted.
(** ... and of two prefixes at one place the first of the list is taken, not
    the longer one. *)
Theorem C47_longer_prefix_refuted :
  extract [47; 47; 47; 32; 97]%Z [slashes; [47; 47; 47]%Z] = Ok [mkFrag 0 0 [47; 32; 97]%Z].
Proof. reflexivity. Qed.
Print Assumptions C47_longer_prefix_refuted.
