#!/bin/bash
# regenerate rocq/_CoqProject: the flag line, then every theory file
cd /verif/rocq && { echo "-Q theories Verif"; ls theories/*.v; } > _CoqProject
