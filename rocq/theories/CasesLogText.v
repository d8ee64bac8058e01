(** Loggers used in the concrete cases of PropLogText.v. *)
From Coq Require Import List.
From Verif Require Import Base Char Spec RustStd RustFmt ModelLogs ModelLogPrint ObsLogLines ObsLogText IterSpec Utf8Facts Cases.
Import ListNotations.

(** Prints lines, with the level trace on. *)
Definition lines : event -> ST (list N) unit := print_log c5 true str_debug 2 line_printer.

(** Records the messages, but cannot show one about a string that is not full, or one with
    bytes that are not UTF-8. *)
Definition picky (e : event) : ST (list event) unit :=
  match e with
  | EvTrim x => if size x =? 5 then record e else slift UB
  | EvPushStr b => if hd 0 b =? 255 then slift UB else record e
  | _ => record e
  end.

(** Holds no text. *)
Definition s_bad : astring := mkastring [255; 0; 0; 0; 0] 1.

Lemma not_text b : from_utf8_ok b = false -> ~ is_text b.
Proof. intros E H. apply from_utf8_ok_iff in H. congruence. Qed.

Lemma then_back {W} (m n : ST W (result unit FmtError)) : comes_back m -> comes_back n -> comes_back (fthen m n).
Proof.
  intros Hm Hn w. unfold fthen, stry, sbind. destruct (Hm w) as [U D].
  destruct (m w) as [[[[]|]| | |] w1]; cbn [fst] in U, D; try congruence; [apply Hn|split; discriminate..].
Qed.
Lemma then_ret {W} (m n : ST W (result unit FmtError)) : returns_always m -> returns_always n -> returns_always (fthen m n).
Proof.
  intros Hm Hn w. unfold fthen, stry, sbind. destruct (Hm w) as ([[]|] & w1 & E); rewrite E; [apply Hn|].
  eexists _, _. reflexivity.
Qed.
Lemma str_debug_safe : safe_debug str_debug.
Proof.
  intros b W k. unfold str_debug. cbn [do_calls]. split; intros [Hs Hc].
  - repeat apply then_back; auto. intros w. split; discriminate.
  - repeat apply then_ret; auto. intros w. exists (Ok tt), w. reflexivity.
Qed.
Lemma line_printer_quiet : quiet_printer line_printer.
Proof.
  repeat split; intros x w; try (eexists _, _; reflexivity).
  cbn. unfold sbind, slift. rewrite encode_utf8_4. eexists _, _. reflexivity.
Qed.
