(** Property C67: how long the text of a value is. *)
From Verif Require Import Base F64 Number BTree Value Nav NavSpec Fmt Formatter FmtVectors FmtSpec LayoutSpec SizeSpec SizeProps2.
Open Scope nat_scope.

(** whatever was called on the formatter: at most three times the nodes times the
    characters of the value *)
Theorem C67_written : forall k fm t, reachable k fm -> fm_write fm [] = LRet t -> length t <= 3 * nodes k * chars k.
Proof. exact any_length. Qed.
Print Assumptions C67_written.
Theorem C67_as_str : forall k cfg t, as_str_with_config k cfg = LRet t -> length t <= 3 * nodes k * chars k.
Proof. exact as_str_length. Qed.
Print Assumptions C67_as_str.
(** on one line: no more than the characters of the value *)
Theorem C67_inline : forall k fm t, reachable k fm -> line_of fm 0 = Some Inline -> fm_write fm [] = LRet t -> length t <= chars k.
Proof. exact inline_length. Qed.
Print Assumptions C67_inline.

(** the cases: a document on one line and on many *)
Definition doc : kserd := cn [("a", tup [i32 111; st "two"; i32 333]); ("b", sq [tup [i32 1; i32 2]; cn [("c", i32 4)]])]%string.
Example C67_case : exists fm t, reachable doc fm /\ line_of fm 0 = Some Verbose /\ fm_write fm [] = LRet t /\ length t = 126 /\ nodes doc = 11 /\ chars doc = 209.
Proof. do 2 eexists. split; [exists []; vm_compute; reflexivity|]. split; [vm_compute; reflexivity|]. split; [vm_compute; reflexivity|]. repeat split. Qed.
Example C67_inline_case : exists fm t, reachable doc fm /\ line_of fm 0 = Some Inline /\ fm_write fm [] = LRet t /\ length t = 46.
Proof. do 2 eexists. split; [exists [OpConfig (width None)]; vm_compute; reflexivity|]. split; [vm_compute; reflexivity|]. split; [vm_compute; reflexivity|]. reflexivity. Qed.

(** with line breaks the length is not linear: [n] tuples of one inside each other
    have at least [4 n n] characters, most of them spaces *)
Theorem C67_tower : forall n, exists t, as_str_with_config (tower n) (width (Some 0)) = LRet t /\ 4 * n * n <= length t.
Proof. exact tower_shows. Qed.
Print Assumptions C67_tower.
Theorem C67_linear_refuted : forall c, exists k t, as_str_with_config k (width (Some 0)) = LRet t /\ c * chars k < length t.
Proof. exact not_linear. Qed.
Print Assumptions C67_linear_refuted.
