#!/usr/bin/env python3
"""Writes theories/PegText.v: the text of miniquery/miniquery.peg as a string.

usage: peg2v.py /repo/miniquery/miniquery.peg > rocq/theories/PegText.v"""
import sys
s = open(sys.argv[1], encoding='ascii', newline='').read()
print('(** The text of miniquery/miniquery.peg, written by tools/peg2v.py. *)')
print('From Verif Require Import Base.\n')
print('Definition peg_text : list N := #"' + s.replace('"', '""') + '".')
